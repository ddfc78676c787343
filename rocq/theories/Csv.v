(** * Model of the CSV helpers

    Source: /repo/curves/src/helpers.cpp (line numbers refer to it).

    Simplifications.
    - A file is the sequence of characters written to it; opening, writing and
      closing succeed.  Where a CHECK stops the program half way the characters
      written so far are not looked at.
    - [std::string] is a list of characters; [std::endl] writes a newline.
    - The conversions between numbers and text, [toString] (lines 14-17) and [atof],
      are parameters.  (Really, [toString] writes six significant digits.)
    - [Eigen::VectorXd] is the list of its entries. *)

From Coq Require Import List Bool Arith NArith Ascii.
From Verif Require Import Base.
Import ListNotations.

(** The contents of a file or string. helpers.cpp lines 26 and 44. *)
Definition text := list ascii.
(** helpers.cpp lines 27 and 54. *)
Definition newline : ascii := Ascii.ascii_of_nat 10.
(** helpers.cpp lines 33 and 52. *)
Definition comma : ascii := ",".

(** Repeated [std::getline(stream, piece, d)] until it fails: the pieces between
    delimiters; after the last delimiter there is a piece only if at least one
    character is left. [cur] holds the characters read since the last delimiter,
    in reverse. helpers.cpp lines 27-37. *)
Fixpoint getlines (d : ascii) (cur : text) (s : text) : list text :=
  match s with
  | [] => match cur with [] => [] | _ => [rev cur] end
  | a :: r => if Ascii.eqb a d then rev cur :: getlines d [] r else getlines d (a :: cur) r
  end.

(** helpers.cpp lines 19-40 *)
Definition load_csv (file : text) : list (list text) :=
  map (getlines comma []) (getlines newline [] file).

(** [unsigned] is 32 bits wide. helpers.cpp lines 48, 71 and 87. *)
Definition to_unsigned (n : nat) : nat := N.to_nat (N.of_nat n mod 2 ^ 32)%N.

(** helpers.cpp lines 47-54: one row; [fields] is [unsigned]. *)
Definition write_row (row : list text) : outcome text :=
  let fields := to_unsigned (length row) in
  if Nat.ltb fields 1 then Abort
  else match firstn fields row with
       | [] => Throw
       | f :: r => Ok (f ++ concat (map (fun x => comma :: x) r) ++ [newline])
       end.

(** helpers.cpp lines 42-57 *)
Definition write_csv (rows : list (list text)) : outcome text :=
  if Nat.ltb (length rows) 1 then Abort
  else foldM (fun file row => let* l := write_row row in Ok (file ++ l)) rows [].

Section Numbers.
Context {S : Type}.
Variable to_string : S -> text.
Variable atof : text -> S.

(** helpers.cpp lines 90-100; [dim] is [vDim]. *)
Definition time_vector_row (dim : nat) (t : S) (v : list S) : outcome (list text) :=
  if Nat.eqb dim (length v) then Ok (to_string t :: map to_string v) else Abort.

(** helpers.cpp lines 82-104 *)
Definition write_time_vector_csv (times : list S) (values : list (list S)) : outcome text :=
  if negb (Nat.eqb (length times) (length values)) then Abort
  else if Nat.ltb (length times) 1 then Abort
  else
    let dim := match values with [] => 0 | v :: _ => to_unsigned (length v) end in
    let* rows := foldM (fun acc tv => let* r := time_vector_row dim (fst tv) (snd tv) in Ok (acc ++ [r]))
                       (combine times values) [] in
    write_csv rows.

(** [row.at(i)] throws std::out_of_range. helpers.cpp lines 74, 76, 123-126. *)
Definition field_at (row : list text) (i : nat) : outcome text :=
  match nth_error row i with Some f => Ok f | None => Throw end.

(** helpers.cpp lines 75-77 and 125-127 *)
Definition read_vector (offset dim : nat) (row : list text) : outcome (list S) :=
  foldM (fun acc i => let* f := field_at row (i + offset) in Ok (acc ++ [atof f])) (seq 0 dim) [].

(** helpers.cpp lines 59-80 *)
Definition load_time_vector_csv (file : text) : outcome (list S * list (list S)) :=
  let temp := load_csv file in
  match temp with
  | [] => Abort
  | row0 :: _ =>
      if Nat.ltb (length row0) 2 then Abort
      else
        let dim := to_unsigned (length row0 - 1) in
        foldM (fun acc row =>
          let* f := field_at row 1 in
          let* v := read_vector 1 dim row in
          Ok (fst acc ++ [atof f], snd acc ++ [v])) temp ([], [])
  end.

(** helpers.cpp lines 106-130 *)
Definition load_time_time_vector_csv (file : text) : outcome (list S * list S * list (list S)) :=
  let temp := load_csv file in
  match temp with
  | [] => Abort
  | row0 :: _ =>
      if Nat.ltb (length row0) 3 then Abort
      else
        let dim := to_unsigned (length row0 - 2) in
        foldM (fun acc row =>
          let* f0 := field_at row 1 in
          let* f1 := field_at row 2 in
          let* v := read_vector 2 dim row in
          Ok (fst (fst acc) ++ [atof f0], snd (fst acc) ++ [atof f1], snd acc ++ [v])) temp ([], [], [])
  end.

End Numbers.
