(** * Model of the script reading an exported curve

    Source: /repo/curves/matlab/readCubicHermiteSE3Curve.m lines 11-66 (reading) and 74, 133, 140, 147 (difference quotients).

    Simplifications.
    - The file can be opened.
    - textscan converts a field with "%f" as atof does.
    - A line with fewer than 14 numbers makes the whole result [None]; what textscan does with it is not modelled.
    - Plotting is left out. *)

From Coq Require Import List Bool ZArith Ascii.
From Flocq Require Import IEEE754.BinarySingleNaN.
From Verif Require Import Base TimeB64 Num NumB64 Csv Digits.
Import ListNotations.

(** The fields of one line: delimiter ' ', MultipleDelimsAsOne; [cur] holds the characters of the field read so far, in reverse.
    readCubicHermiteSE3Curve.m lines 13 and 41. *)
Fixpoint fields (cur : text) (l : text) : list text :=
  match l with
  | [] => match cur with [] => [] | _ => [rev cur] end
  | a :: r => if Ascii.eqb a " " then match cur with [] => fields [] r | _ => rev cur :: fields [] r end
              else fields (a :: cur) r
  end.

(** One line with the format of 14 numbers; the rest of the line is dropped. readCubicHermiteSE3Curve.m lines 16-32 and 41. *)
Definition scan_line (l : text) : option (list b64) :=
  let fs := firstn 14 (fields [] l) in
  if Nat.eqb (length fs) 14 then Some (map atof fs) else None.

(** Not in the source: all lines or nothing. *)
Fixpoint scan_lines (ls : list text) : option (list (list b64)) :=
  match ls with
  | [] => Some []
  | l :: r => match scan_line l, scan_lines r with Some x, Some y => Some (x :: y) | _, _ => None end
  end.

(** The rows of dataArray; the first line is skipped (startRow = 2). readCubicHermiteSE3Curve.m lines 14 and 41. *)
Definition matlab_read (file : text) : option (list (list b64)) := scan_lines (tl (getlines newline [] file)).

(** dataArray{:, i}, counted from 0 here. readCubicHermiteSE3Curve.m lines 53-66. *)
Definition column (i : nat) (table : list (list b64)) : list b64 := map (fun row => nth i row B754_nan) table.

(** dt = (t(2)-t(1)), an error if there are fewer than two rows. readCubicHermiteSE3Curve.m line 74. *)
Definition matlab_step (table : list (list b64)) : option b64 :=
  match column 0 table with
  | t1 :: t2 :: _ => Some (nsub t2 t1)
  | _ => None
  end.

(** diff(x): the differences of neighbours. readCubicHermiteSE3Curve.m lines 133, 140 and 147. *)
Fixpoint diff (xs : list b64) : list b64 :=
  match xs with
  | x :: ((y :: _) as r) => nsub y x :: diff r
  | _ => []
  end.

(** diff(x).*1/dt: the red dots of the plots. readCubicHermiteSE3Curve.m lines 133, 140 and 147. *)
Definition difference_quotients (i : nat) (table : list (list b64)) : option (list b64) :=
  option_map (fun dt : b64 => map (fun d : b64 => ndiv (nmul d (nofZ 1%Z : b64)) dt) (diff (column i table))) (matlab_step table).
