(** * C45, C46: CSV files *)

From Coq Require Import List Bool Arith NArith Ascii Lia.
From Verif Require Import Base Csv.
Import ListNotations.
Local Open Scope list_scope.

(** ** Vocabulary *)

(** A field that survives: no delimiter in it. *)
Definition plain (f : text) : Prop := ~ In comma f /\ ~ In newline f.

(** Sizes fit into [unsigned]. *)
Definition small (n : nat) : Prop := (N.of_nat n < 2 ^ 32)%N.

Lemma to_unsigned_small n : small n -> to_unsigned n = n.
Proof. intros Hn. unfold to_unsigned. rewrite N.mod_small by exact Hn. apply Nnat.Nat2N.id. Qed.

(** ** getline *)

Lemma getlines_none d : forall s cur, ~ In d s ->
  getlines d cur s = match rev cur ++ s with [] => [] | p => [p] end.
Proof.
  induction s as [|a s IH]; intros cur Hn; simpl.
  - rewrite app_nil_r. destruct cur as [|c cur]; auto.
    destruct (rev (c :: cur)) eqn:E; auto. apply (f_equal (@length _)) in E. rewrite rev_length in E. discriminate.
  - destruct (Ascii.eqb_spec a d) as [->|_]; [exfalso; apply Hn; simpl; auto|].
    rewrite IH by (intros X; apply Hn; simpl; auto). simpl. now rewrite <- app_assoc.
Qed.

Lemma getlines_cut d : forall p cur s, ~ In d p ->
  getlines d cur (p ++ d :: s) = (rev cur ++ p) :: getlines d [] s.
Proof.
  induction p as [|a p IH]; intros cur s Hn; simpl.
  - rewrite Ascii.eqb_refl, app_nil_r. reflexivity.
  - destruct (Ascii.eqb_spec a d) as [->|_]; [exfalso; apply Hn; simpl; auto|].
    rewrite IH by (intros X; apply Hn; simpl; auto). simpl. now rewrite <- app_assoc.
Qed.

(** What getline returns never contains the delimiter and consists of characters of the input. *)
Lemma getlines_no_delim d : forall s cur, ~ In d cur -> Forall (fun p => ~ In d p) (getlines d cur s).
Proof.
  induction s as [|a s IH]; intros cur Hc; simpl.
  - destruct cur as [|c cur]; constructor; auto. now rewrite <- in_rev.
  - destruct (Ascii.eqb_spec a d) as [E|E].
    + constructor; [now rewrite <- in_rev|]. apply IH. intros [].
    + apply IH. simpl. intros [X|X]; auto.
Qed.

Lemma getlines_chars d x : forall s cur p, In p (getlines d cur s) -> In x p -> In x cur \/ In x s.
Proof.
  induction s as [|a s IH]; intros cur p Hp Hx; simpl in *.
  - destruct cur as [|c cur]; [destruct Hp|]. destruct Hp as [<-|[]]. left. now apply in_rev in Hx.
  - destruct (Ascii.eqb a d).
    + destruct Hp as [<-|Hp]; [left; now apply in_rev|]. destruct (IH _ _ Hp Hx) as [[]|X]; auto.
    + destruct (IH _ _ Hp Hx) as [[X|X]|X]; auto.
Qed.

(** ** Writing *)

Definition joined (f : text) (r : list text) : text := f ++ concat (map (fun x => comma :: x) r).

Lemma write_row_ok row : row <> [] -> small (length row) ->
  exists f r, row = f :: r /\ write_row row = Ok (joined f r ++ [newline]).
Proof.
  intros Hne Hs. destruct row as [|f r]; [congruence|]. exists f, r. split; auto.
  unfold write_row. rewrite to_unsigned_small by exact Hs.
  destruct (Nat.ltb_spec (length (f :: r)) 1); [simpl in *; lia|]. rewrite firstn_all. unfold joined.
  now rewrite <- app_assoc.
Qed.

Definition line_of (row : list text) : text := match row with [] => [] | f :: r => joined f r end.

Lemma write_row_line row : row <> [] -> small (length row) -> write_row row = Ok (line_of row ++ [newline]).
Proof. intros Hne Hs. destruct (write_row_ok row Hne Hs) as (f & r & -> & E). exact E. Qed.

Definition all_small (rows : list (list text)) : Prop := Forall (fun row => small (length row)) rows.

Lemma write_loop rows : forall file, Forall (fun r => r <> []) rows -> all_small rows ->
  foldM (fun file row => let* l := write_row row in Ok (file ++ l)) rows file =
  Ok (file ++ concat (map (fun row => line_of row ++ [newline]) rows)).
Proof.
  induction rows as [|row rows IH]; intros file Hne Hs; simpl; [now rewrite app_nil_r|].
  inversion Hne; subst. inversion Hs; subst. rewrite write_row_line by assumption. cbn [bind].
  rewrite IH by assumption. now rewrite <- app_assoc.
Qed.

Lemma write_csv_ok rows : rows <> [] -> Forall (fun r => r <> []) rows -> all_small rows ->
  write_csv rows = Ok (concat (map (fun row => line_of row ++ [newline]) rows)).
Proof.
  intros Hn Hne Hs. unfold write_csv. destruct rows as [|row rows]; [congruence|].
  destruct (Nat.ltb_spec (length (row :: rows)) 1); [simpl in *; lia|].
  now rewrite write_loop.
Qed.

(** ** Fields of a line *)

(** A trailing empty field is dropped. *)
Definition drop_empty (row : list text) : list text :=
  match last row [] with [] => removelast row | _ => row end.

Lemma fields_of_line : forall (r : list text) (f : text), Forall (fun x => ~ In comma x) (f :: r) ->
  getlines comma [] (joined f r) = drop_empty (f :: r).
Proof.
  induction r as [|g r IH]; intros f Hf; inversion Hf as [|? ? Hf1 Hf2]; subst.
  - unfold joined, drop_empty. simpl. rewrite app_nil_r, getlines_none by assumption. simpl. now destruct f.
  - change (joined f (g :: r)) with (f ++ comma :: joined g r). rewrite getlines_cut by assumption.
    rewrite IH by assumption. unfold drop_empty. change (last (f :: g :: r) []) with (last (g :: r) []).
    change (removelast (f :: g :: r)) with (f :: removelast (g :: r)). simpl rev.
    destruct (last (g :: r) []); reflexivity.
Qed.

Lemma line_chars x row : In x (line_of row) -> x = comma \/ exists f, In f row /\ In x f.
Proof.
  destruct row as [|f r]; [intros []|]. unfold line_of, joined. rewrite in_app_iff, in_concat.
  intros [Hx|(l & Hl & Hx)]; [right; exists f; simpl; auto|].
  apply in_map_iff in Hl as (g & <- & Hg). destruct Hx as [<-|Hx]; auto. right. exists g. simpl. auto.
Qed.

Lemma lines_of_file rows : Forall (fun row => ~ In newline (line_of row)) rows ->
  getlines newline [] (concat (map (fun row => line_of row ++ [newline]) rows)) = map line_of rows.
Proof.
  induction 1 as [|row rows Hr Hrs IH]; simpl; auto.
  rewrite <- app_assoc. simpl. rewrite getlines_cut by assumption. simpl. now rewrite IH.
Qed.

Lemma plain_line row : Forall plain row -> ~ In newline (line_of row).
Proof.
  intros Hp Hx. apply line_chars in Hx as [Hx|(f & Hf & Hx)]; [discriminate|].
  rewrite Forall_forall in Hp. now apply (Hp f Hf).
Qed.

Lemma load_fields file row f : In row (load_csv file) -> In f row -> plain f.
Proof.
  unfold load_csv. rewrite in_map_iff. intros (l & <- & Hl) Hf. split.
  - pose proof (getlines_no_delim comma l [] (fun X => X)) as Hn. rewrite Forall_forall in Hn. auto.
  - intros Hx. destruct (getlines_chars comma newline l [] f Hf Hx) as [[]|X].
    pose proof (getlines_no_delim newline file [] (fun Y => Y)) as Hn. rewrite Forall_forall in Hn.
    now apply (Hn l Hl).
Qed.

Lemma map_fixed {A} (f : A -> A) : forall l x, map f l = l -> In x l -> f x = x.
Proof.
  induction l as [|a l IH]; simpl; [tauto|]. intros x [= E1 E2] [<-|Hx]; auto.
Qed.

(** ** C45 *)

(** Writing fails exactly for an empty matrix and for a matrix with an empty row. *)
Theorem C45_write_aborts : forall rows, all_small rows ->
  (write_csv rows = Abort <-> rows = [] \/ In [] rows) /\
  (forall o, write_csv rows = o -> o = Abort \/ exists file, o = Ok file).
Proof.
  intros rows Hs. destruct rows as [|row0 rows0]; [split; [simpl; tauto|simpl; auto]|].
  set (rows := row0 :: rows0) in *.
  assert (E : write_csv rows = foldM (fun file row => let* l := write_row row in Ok (file ++ l)) rows []) by reflexivity.
  assert (G : forall l file, all_small l ->
     let o := foldM (fun file row => let* l := write_row row in Ok (file ++ l)) l file in
     (In [] l /\ o = Abort) \/ (~ In [] l /\ exists f, o = Ok f)).
  { clear. induction l as [|row l IH]; intros file Hl; simpl; [right; split; [tauto|eauto]|].
    inversion Hl; subst. destruct row as [|f r].
    - left. split; auto.
    - rewrite write_row_line by (auto; discriminate). cbn [bind].
      destruct (IH (file ++ line_of (f :: r) ++ [newline])) as [[A B]|[A B]]; auto.
      right. split; auto. intros [X|X]; [discriminate|auto]. }
  rewrite E. destruct (G rows [] Hs) as [[A B]|[A [f B]]]; rewrite B.
  - split; [tauto|auto].
  - split; [|intros o <-; eauto]. split; [discriminate|]. intros [X|X]; [discriminate|contradiction].
Qed.

(** Reading back a written matrix gives the same matrix exactly if all fields are
    free of commas and newlines and no row ends in an empty field. *)
Theorem C45_write_then_load : forall rows file,
  all_small rows -> write_csv rows = Ok file ->
  (load_csv file = rows <-> Forall (fun row => Forall plain row /\ last row [] <> []) rows).
Proof.
  intros rows file Hs Hw.
  assert (Hne : rows <> [] /\ Forall (fun r => r <> []) rows).
  { destruct (C45_write_aborts rows Hs) as [A _]. split.
    - intros ->. discriminate.
    - apply Forall_forall. intros r Hr ->. rewrite (proj2 A) in Hw; [discriminate|auto]. }
  destruct Hne as [Hn Hne]. rewrite (write_csv_ok rows Hn Hne Hs) in Hw. injection Hw as <-.
  assert (Load : Forall (fun row => Forall plain row) rows ->
     load_csv (concat (map (fun row => line_of row ++ [newline]) rows)) =
     map drop_empty rows).
  { intros Hp. unfold load_csv. rewrite lines_of_file.
    - rewrite map_map. apply map_ext_in. intros row Hr. rewrite Forall_forall in Hne, Hp.
      destruct row as [|f r]; [now specialize (Hne _ Hr)|]. apply fields_of_line.
      eapply Forall_impl; [|exact (Hp _ Hr)]. now intros ? [].
    - eapply Forall_impl; [|exact Hp]. apply plain_line. }
  split.
  - intros E. assert (Hp : Forall (fun row => Forall plain row) rows).
    { apply Forall_forall. intros row Hr. apply Forall_forall. intros f Hf.
      rewrite <- E in Hr. eapply load_fields; eauto. }
    rewrite (Load Hp) in E. apply Forall_forall. intros row Hr. rewrite Forall_forall in Hp, Hne.
    split; [auto|]. intros El.
    assert (X : drop_empty row = row).
    { exact (map_fixed _ _ _ E Hr). }
    unfold drop_empty in X. rewrite El in X. specialize (Hne _ Hr). destruct row as [|f r]; [congruence|].
    rewrite (app_removelast_last [] (l := f :: r)) in X at 2 by discriminate.
    rewrite El in X. apply (f_equal (@length _)) in X. rewrite app_length in X. simpl in X. lia.
  - intros Hp. rewrite Load; [|eapply Forall_impl; [|exact Hp]; now intros ? []].
    rewrite <- (map_id rows) at 2. apply map_ext_in. intros row Hr. rewrite Forall_forall in Hp.
    destruct (Hp _ Hr) as [_ Hl]. unfold drop_empty. destruct (last row []); [congruence|reflexivity].
Qed.

Example C45_example : exists rows file,
  all_small rows /\ write_csv rows = Ok file /\ load_csv file = rows /\ length rows = 2.
Proof.
  exists [[["1"%char]; []; ["2"%char; " "%char]]; [["x"%char]]]. eexists.
  split; [repeat constructor|]. split; [reflexivity|]. split; reflexivity.
Qed.

(** An empty last field is lost, a field with a comma is split. *)
Example C45_counterexamples :
  load_csv ["a"%char; comma; newline] = [[["a"%char]]] /\
  write_csv [[["a"%char]; []]] = Ok ["a"%char; comma; newline] /\
  load_csv ["a"%char; comma; "b"%char; newline] = [[["a"%char]; ["b"%char]]] /\
  write_csv [[["a"%char; comma; "b"%char]]] = Ok ["a"%char; comma; "b"%char; newline].
Proof. repeat split. Qed.

(** ** C46 *)

Lemma skipn_nth {A} (l : list A) : forall n x, nth_error l n = Some x -> skipn n l = x :: skipn (S n) l.
Proof.
  induction l as [|a l IH]; intros [|n] x E; simpl in *; try discriminate; [now injection E as ->|].
  rewrite (IH _ _ E). reflexivity.
Qed.

(** Reading a row: [offset] leading columns, then [dim] entries. *)
Lemma read_vector_ok {S} (atof : text -> S) offset dim row : (offset + dim <= length row)%nat ->
  read_vector atof offset dim row = Ok (map atof (firstn dim (skipn offset row))).
Proof.
  intros Hl. unfold read_vector.
  assert (G : forall n k acc, (offset + (k + n) <= length row)%nat ->
    foldM (fun acc i => let* f := field_at row (i + offset) in Ok (acc ++ [atof f])) (seq k n) acc =
    Ok (acc ++ map atof (firstn n (skipn (k + offset) row)))).
  { clear. induction n as [|n IH]; intros k acc Hl; simpl; [now rewrite app_nil_r|].
    unfold field_at. destruct (nth_error row (k + offset)) as [f|] eqn:E.
    - cbn [bind]. rewrite IH by lia. rewrite <- app_assoc, (skipn_nth _ _ _ E). reflexivity.
    - apply nth_error_None in E. lia. }
  rewrite G by lia. reflexivity.
Qed.

Lemma read_vector_throw {S} (atof : text -> S) offset dim row : (length row < offset + dim)%nat -> dim <> 0 ->
  read_vector atof offset dim row = Throw.
Proof.
  intros Hl Hd. unfold read_vector.
  assert (G : forall n k acc, (length row < offset + (k + n))%nat -> n <> 0 ->
    foldM (fun acc i => let* f := field_at row (i + offset) in Ok (acc ++ [atof f])) (seq k n) acc = Throw).
  { clear. induction n as [|n IH]; intros k acc Hl Hd; [congruence|]. simpl. unfold field_at.
    destruct (nth_error row (k + offset)) as [f|] eqn:E; [|reflexivity]. cbn [bind].
    destruct n as [|n].
    - exfalso. assert (X : (k + offset < length row)%nat) by (apply nth_error_Some; congruence). lia.
    - apply IH; lia. }
  apply G; auto.
Qed.

Lemma foldM_ok_map {A B C} (step : A -> outcome B) (f : A -> B) (put : C -> B -> C) l :
  (forall a, In a l -> step a = Ok (f a)) -> forall c,
  foldM (fun c a => let* b := step a in Ok (put c b)) l c = Ok (fold_left (fun c a => put c (f a)) l c).
Proof.
  induction l as [|a l IH]; intros Hs c; simpl; auto. rewrite Hs by (simpl; auto). cbn [bind].
  apply IH. intros x Hx. apply Hs. simpl. auto.
Qed.

Lemma foldM_throw {A B C} (step : A -> outcome B) (put : C -> B -> C) l :
  (forall a, In a l -> (exists b, step a = Ok b) \/ step a = Throw) -> (exists a, In a l /\ step a = Throw) ->
  forall c, foldM (fun c a => let* b := step a in Ok (put c b)) l c = Throw.
Proof.
  induction l as [|a l IH]; intros Hs (x & Hx & Ex) c; [destruct Hx|]. simpl.
  destruct (Hs a) as [[b E]|E]; [simpl; auto| |]; rewrite E; cbn [bind]; auto.
  apply IH; [intros y Hy; apply Hs; simpl; auto|]. exists x. destruct Hx as [->|Hx]; auto. congruence.
Qed.

Lemma fold_append2 {A B C} (f : A -> B) (g : A -> C) l : forall p,
  fold_left (fun p a => (fst p ++ [f a], snd p ++ [g a])) l p = (fst p ++ map f l, snd p ++ map g l).
Proof.
  induction l as [|a l IH]; intros [x y]; simpl; [now rewrite !app_nil_r|].
  rewrite IH. simpl. now rewrite <- !app_assoc.
Qed.

(** One row as loadTimeVectorCSV reads it. *)
Lemma load_time_vector_steps {S} (atof : text -> S) file row0 rest :
  load_csv file = row0 :: rest -> (2 <= length row0)%nat -> small (length row0) ->
  load_time_vector_csv atof file =
  foldM (fun acc row =>
    let* b := (let* f := field_at row 1 in let* v := read_vector atof 1 (length row0 - 1) row in Ok (atof f, v)) in
    Ok (fst acc ++ [fst b], snd acc ++ [snd b])) (row0 :: rest) ([], []).
Proof.
  intros E Hl Hs. unfold load_time_vector_csv. rewrite E.
  destruct (Nat.ltb_spec (length row0) 2); [lia|].
  rewrite to_unsigned_small by (unfold small in *; lia).
  generalize (row0 :: rest), (@nil S, @nil (list S)).
  induction l as [|row l IH]; intros acc; simpl; auto.
  destruct (field_at row 1); simpl; auto. destruct (read_vector atof 1 (length row0 - 1) row); simpl; auto.
Qed.

(** The complete behaviour of loadTimeVectorCSV on any file: the times and the
    first entries of the vectors are both taken from the second column. *)
Theorem C46_load_behaviour : forall (S : Type) (atof : text -> S) file,
  (forall row0 rest, load_csv file = row0 :: rest -> small (length row0)) ->
  match load_csv file with
  | [] => load_time_vector_csv atof file = Abort
  | row0 :: _ =>
      (length row0 < 2 -> load_time_vector_csv atof file = Abort) /\
      (2 <= length row0 -> (exists row, In row (load_csv file) /\ length row < length row0) ->
         load_time_vector_csv atof file = Throw) /\
      (2 <= length row0 -> (forall row, In row (load_csv file) -> length row0 <= length row) ->
         load_time_vector_csv atof file =
         Ok (map (fun row => atof (nth 1 row [])) (load_csv file),
             map (fun row => map atof (firstn (length row0 - 1) (tl row))) (load_csv file)))
  end.
Proof.
  intros S atof file Hs. destruct (load_csv file) as [|row0 rest] eqn:E.
  - unfold load_time_vector_csv. now rewrite E.
  - specialize (Hs _ _ eq_refl). split; [|split].
    + intros Hl. unfold load_time_vector_csv. rewrite E. destruct (Nat.ltb_spec (length row0) 2); [auto|lia].
    + intros Hl Hx. rewrite (load_time_vector_steps _ _ _ _ E Hl Hs).
      apply (foldM_throw _ (fun acc b => (fst acc ++ [fst b], snd acc ++ [snd b]))).
      * intros row _. unfold field_at. destruct (nth_error row 1); [|auto]. cbn [bind].
        destruct (Nat.le_gt_cases (1 + (length row0 - 1)) (length row)) as [L|L].
        -- rewrite read_vector_ok by exact L. left. eexists. reflexivity.
        -- rewrite read_vector_throw by lia. auto.
      * destruct Hx as (row & Hr & Lr). exists row. split; auto. unfold field_at.
        destruct (nth_error row 1); [|auto]. cbn [bind]. rewrite read_vector_throw by lia. reflexivity.
    + intros Hl Ha. rewrite (load_time_vector_steps _ _ _ _ E Hl Hs).
      rewrite (foldM_ok_map _ (fun row => (atof (nth 1 row []), map atof (firstn (length row0 - 1) (tl row))))
                 (fun acc b => (fst acc ++ [fst b], snd acc ++ [snd b]))).
      * cbn [fst snd]. rewrite fold_append2. reflexivity.
      * intros row Hr. specialize (Ha _ Hr). unfold field_at.
        destruct row as [|f0 [|f1 r]]; simpl in Ha; try lia. cbn [nth_error bind].
        rewrite read_vector_ok by (simpl; lia). reflexivity.
Qed.

(** Both failures occur, and success as well. *)
Example C46_load_behaviour_example :
  let f := fun s : text => length s in
  load_time_vector_csv f [] = Abort /\
  load_time_vector_csv f ["1"%char; newline] = Abort /\
  load_time_vector_csv f ["1"%char; comma; "2"%char; newline; "3"%char; newline] = Throw /\
  load_time_vector_csv f ["1"%char; comma; "2"%char; "2"%char; newline] = Ok ([2], [[2]]).
Proof. repeat split. Qed.

(** Texts of numbers contain no delimiter and are not empty. *)
Record plain_format {S} (to_string : S -> text) : Prop := {
  pf_plain : forall x, plain (to_string x);
  pf_nonempty : forall x, to_string x <> []
}.

(** Formatting of numbers without loss. *)
Record exact_format {S} (to_string : S -> text) (atof : text -> S) : Prop := {
  ef_inverse : forall x, atof (to_string x) = x;
  ef_plain : forall x, plain (to_string x);
  ef_nonempty : forall x, to_string x <> []
}.

Lemma exact_plain {S} (to_string : S -> text) atof : exact_format to_string atof -> plain_format to_string.
Proof. intros [_ P N]. now split. Qed.

Lemma fold_append1 {A B} (f : A -> B) l : fold_left (fun acc a => acc ++ [f a]) l [] = map f l.
Proof.
  assert (G : forall acc, fold_left (fun acc a => acc ++ [f a]) l acc = acc ++ map f l).
  { induction l as [|a l IH]; intros acc; simpl; [now rewrite app_nil_r|]. rewrite IH. now rewrite <- app_assoc. }
  apply G.
Qed.

Lemma time_rows {S} (to_string : S -> text) dim times values :
  length times = length values -> (forall v, In v values -> length v = dim) ->
  foldM (fun acc tv => let* r := time_vector_row to_string dim (fst tv) (snd tv) in Ok (acc ++ [r]))
        (combine times values) [] =
  Ok (map (fun tv => map to_string (fst tv :: snd tv)) (combine times values)).
Proof.
  intros Hl Hd.
  rewrite (foldM_ok_map _ (fun tv => map to_string (fst tv :: snd tv)) (fun acc r => acc ++ [r])).
  - f_equal. apply fold_append1.
  - intros [t v] Hi. apply in_combine_r in Hi. unfold time_vector_row. simpl.
    rewrite (Hd _ Hi), Nat.eqb_refl. reflexivity.
Qed.

Lemma last_map {A B} (f : A -> B) d l e : l <> [] -> last (map f l) e = f (last l d).
Proof.
  induction l as [|a l IH]; [congruence|]. intros _. destruct l as [|b l]; auto.
  change (last (map f (b :: l)) e = f (last (b :: l) d)). apply IH. discriminate.
Qed.

(** Writing times and vectors and reading them back returns the vectors, but as times the
    first entries of the vectors, everything as changed by the formatting. *)
Theorem C46_loaded_columns : forall (S : Type) (to_string : S -> text) (atof : text -> S) dim times values zero,
  plain_format to_string -> times <> [] -> length times = length values ->
  1 <= dim -> small (dim + 1) -> (forall v, In v values -> length v = dim) ->
  exists file, write_time_vector_csv to_string times values = Ok file /\
    load_time_vector_csv atof file =
    Ok (map (fun v => atof (to_string (nth 0 v zero))) values, map (map (fun x => atof (to_string x))) values).
Proof.
  intros S ts atof dim times values zero [Hp Hn] Hne Hl Hd Hs Hv.
  set (rows := map (fun tv => map ts (fst tv :: snd tv)) (combine times values)).
  assert (Hrows : rows <> []).
  { unfold rows. destruct times as [|t times]; [congruence|]. destruct values; [discriminate|]. discriminate. }
  assert (Hlen : forall row, In row rows -> length row = dim + 1).
  { unfold rows. intros row Hr. apply in_map_iff in Hr as ([t v] & <- & Hr). apply in_combine_r in Hr.
    simpl. rewrite map_length, (Hv _ Hr). lia. }
  assert (Hsm : all_small rows).
  { apply Forall_forall. intros row Hr. now rewrite (Hlen _ Hr). }
  assert (Hpl : Forall (fun row => Forall plain row /\ last row [] <> []) rows).
  { apply Forall_forall. unfold rows. intros row Hr. apply in_map_iff in Hr as ([t v] & <- & Hr). cbn [fst snd]. split.
    - apply Forall_forall. intros f Hf. apply in_map_iff in Hf as (x & <- & _). apply Hp.
    - rewrite (last_map ts t (t :: v)) by discriminate. apply Hn. }
  exists (concat (map (fun row => line_of row ++ [newline]) rows)).
  assert (Hw : write_csv rows = Ok (concat (map (fun row => line_of row ++ [newline]) rows))).
  { apply write_csv_ok; auto. apply Forall_forall. intros row Hr ->. specialize (Hlen _ Hr). simpl in Hlen. lia. }
  split.
  - unfold write_time_vector_csv. rewrite Hl, Nat.eqb_refl. cbn [negb].
    destruct (Nat.ltb_spec (length values) 1) as [X|_].
    { destruct times; [congruence|]. simpl in Hl. lia. }
    assert (D : match values with [] => 0 | v :: _ => to_unsigned (length v) end = dim).
    { destruct values as [|v values']; [destruct times; [congruence|discriminate]|].
      rewrite (Hv v) by (simpl; auto). apply to_unsigned_small. unfold small in *. lia. }
    rewrite D, time_rows by auto. cbn [bind]. exact Hw.
  - pose proof (proj2 (C45_write_then_load rows _ Hsm Hw) Hpl) as Hload.
    pose proof (C46_load_behaviour S atof (concat (map (fun row => line_of row ++ [newline]) rows))) as B.
    rewrite Hload in B.
    assert (Hsm0 : forall row0 rest, rows = row0 :: rest -> small (length row0)).
    { intros row0 rest E. rewrite (Hlen row0); [exact Hs|]. rewrite E. simpl. auto. }
    pose proof (B Hsm0) as B'. clear B.
    assert (R1 : map (fun row => atof (nth 1 row [])) rows = map (fun v => atof (ts (nth 0 v zero))) values).
    { unfold rows. rewrite map_map. clear - Hd Hl Hv. revert values Hl Hv.
      induction times as [|t times IH]; intros [|v values] Hl Hv; simpl in *; try discriminate; auto.
      f_equal; [|apply IH; auto]. specialize (Hv v (or_introl eq_refl)). destruct v as [|x v]; simpl in *; [lia|]. reflexivity. }
    assert (R2 : map (fun row => map atof (firstn dim (tl row))) rows = map (map (fun x => atof (ts x))) values).
    { unfold rows. rewrite map_map. clear - Hl Hv. revert values Hl Hv.
      induction times as [|t times IH]; intros [|v values] Hl Hv; simpl in *; try discriminate; auto.
      f_equal; [|apply IH; auto]. rewrite <- (Hv v) by auto. rewrite <- (map_length ts v), firstn_all, map_map. reflexivity. }
    destruct rows as [|row0 rest]; [congruence|].
    destruct B' as (_ & _ & B').
    assert (L0 : length row0 = dim + 1) by (apply Hlen; simpl; auto).
    rewrite B'.
    + rewrite R1. rewrite L0. replace (dim + 1 - 1) with dim by lia. now rewrite R2.
    + lia.
    + intros row Hr. rewrite (Hlen _ Hr). lia.
Qed.

(** Without loss in the formatting. *)
Theorem C46_times_are_first_entries : forall (S : Type) (to_string : S -> text) (atof : text -> S) dim times values zero,
  exact_format to_string atof -> times <> [] -> length times = length values ->
  1 <= dim -> small (dim + 1) -> (forall v, In v values -> length v = dim) ->
  exists file, write_time_vector_csv to_string times values = Ok file /\
    load_time_vector_csv atof file = Ok (map (fun v => nth 0 v zero) values, values).
Proof.
  intros S ts atof dim times values zero Hf Hne Hl Hd Hs Hv.
  destruct (C46_loaded_columns S ts atof dim times values zero (exact_plain _ _ Hf) Hne Hl Hd Hs Hv) as (file & Hw & E).
  exists file. split; auto. rewrite E. f_equal. f_equal.
  - apply map_ext. intros v. apply (ef_inverse _ _ Hf).
  - rewrite <- map_id. apply map_ext. intros v. rewrite <- map_id. apply map_ext. intros x. apply (ef_inverse _ _ Hf).
Qed.

(** So times survive only if they agree with the first entries. *)
Theorem C46_round_trip_refuted : forall (S : Type) (to_string : S -> text) (atof : text -> S) (a b : S),
  exact_format to_string atof -> a <> b ->
  exists file, write_time_vector_csv to_string [a] [[b]] = Ok file /\
    load_time_vector_csv atof file = Ok ([b], [[b]]) /\ load_time_vector_csv atof file <> Ok ([a], [[b]]).
Proof.
  intros S ts atof a b Hf Hab.
  destruct (C46_times_are_first_entries S ts atof 1 [a] [[b]] a Hf) as (file & Hw & Hl); auto; try discriminate.
  - reflexivity.
  - intros v [<-|[]]. reflexivity.
  - exists file. simpl in Hl. rewrite Hl. split; auto. split; auto. congruence.
Qed.

Example exact_format_exists :
  exact_format (fun b : bool => [if b then "1" else "0"]%char)
               (fun s => match s with [a] => Ascii.eqb a "1" | _ => false end).
Proof.
  split.
  - intros []; reflexivity.
  - intros []; split; intros [X|[]]; discriminate.
  - intros []; discriminate.
Qed.

Lemma fold_append3 {A B C D} (f : A -> B) (g : A -> C) (h : A -> D) l : forall p,
  fold_left (fun p a => (fst (fst p) ++ [f a], snd (fst p) ++ [g a], snd p ++ [h a])) l p =
  (fst (fst p) ++ map f l, snd (fst p) ++ map g l, snd p ++ map h l).
Proof.
  induction l as [|a l IH]; intros [[x y] z]; simpl; [now rewrite !app_nil_r|].
  rewrite IH. simpl. now rewrite <- !app_assoc.
Qed.

(** The same for the format with two times: they are read from the columns of the
    second time and of the first vector entry. *)
Theorem C46_two_times : forall (S : Type) (atof : text -> S) (to_string : S -> text) (zero : S)
    (data : list (S * S * list S)) dim,
  exact_format to_string atof -> data <> [] -> 1 <= dim -> small (dim + 2) ->
  (forall t0 t1 v, In (t0, t1, v) data -> length v = dim) ->
  exists file, write_csv (map (fun r => map to_string (fst (fst r) :: snd (fst r) :: snd r)) data) = Ok file /\
    load_time_time_vector_csv atof file =
    Ok (map (fun r => snd (fst r)) data, map (fun r => nth 0 (snd r) zero) data, map snd data).
Proof.
  intros S atof ts zero data dim [Hi Hp Hn] Hne Hd Hs Hv.
  set (rows := map (fun r => map ts (fst (fst r) :: snd (fst r) :: snd r)) data).
  assert (Hrows : rows <> []) by (unfold rows; destruct data; [congruence|discriminate]).
  assert (Hlen : forall row, In row rows -> length row = dim + 2).
  { unfold rows. intros row Hr. apply in_map_iff in Hr as ([[t0 t1] v] & <- & Hr).
    simpl. rewrite map_length, (Hv _ _ _ Hr). lia. }
  assert (Hsm : all_small rows).
  { apply Forall_forall. intros row Hr. now rewrite (Hlen _ Hr). }
  assert (Hpl : Forall (fun row => Forall plain row /\ last row [] <> []) rows).
  { apply Forall_forall. unfold rows. intros row Hr. apply in_map_iff in Hr as ([[t0 t1] v] & <- & Hr).
    cbn [fst snd]. split.
    - apply Forall_forall. intros f Hf. apply in_map_iff in Hf as (x & <- & _). apply Hp.
    - rewrite (last_map ts t0 (t0 :: t1 :: v)) by discriminate. apply Hn. }
  exists (concat (map (fun row => line_of row ++ [newline]) rows)).
  assert (Hw : write_csv rows = Ok (concat (map (fun row => line_of row ++ [newline]) rows))).
  { apply write_csv_ok; auto. apply Forall_forall. intros row Hr ->. specialize (Hlen _ Hr). simpl in Hlen. lia. }
  split; [exact Hw|].
  pose proof (proj2 (C45_write_then_load rows _ Hsm Hw) Hpl) as Hload.
  unfold load_time_time_vector_csv. rewrite Hload.
  assert (E : foldM (fun acc row =>
      let* b := (let* f0 := field_at row 1 in let* f1 := field_at row 2 in
                 let* v := read_vector atof 2 dim row in Ok (atof f0, atof f1, v)) in
      Ok (fst (fst acc) ++ [fst (fst b)], snd (fst acc) ++ [snd (fst b)], snd acc ++ [snd b])) rows ([], [], []) =
     Ok (map (fun r => snd (fst r)) data, map (fun r => nth 0 (snd r) zero) data, map snd data)).
  { unfold rows at 1. set (g := fun r : S * S * list S => map ts (fst (fst r) :: snd (fst r) :: snd r)).
    set (get := fun row : list text => (atof (nth 1 row []), atof (nth 2 row []), map atof (firstn dim (skipn 2 row)))).
    rewrite (foldM_ok_map _ get
      (fun acc b => (fst (fst acc) ++ [fst (fst b)], snd (fst acc) ++ [snd (fst b)], snd acc ++ [snd b]))).
    - unfold get. cbn [fst snd]. rewrite fold_append3. cbn [fst snd app]. rewrite !map_map. f_equal. f_equal; [f_equal|].
      + apply map_ext. intros [[t0 t1] v]. simpl. apply Hi.
      + apply map_ext_in. intros [[t0 t1] v] Hr. specialize (Hv _ _ _ Hr). destruct v as [|x v]; simpl in *; [lia|]. apply Hi.
      + apply map_ext_in. intros [[t0 t1] v] Hr. specialize (Hv _ _ _ Hr). unfold g. simpl.
        rewrite <- Hv, <- (map_length ts v), firstn_all, map_map. rewrite <- map_id. apply map_ext. auto.
    - intros row Hr. apply in_map_iff in Hr as ([[t0 t1] v] & <- & Hr). specialize (Hv _ _ _ Hr).
      unfold g, field_at. destruct v as [|x v]; simpl in Hv; [lia|]. cbn [fst snd map nth_error bind].
      rewrite read_vector_ok by (simpl; rewrite map_length; lia). reflexivity. }
  rewrite <- E. assert (L0 : length (hd [] rows) = dim + 2).
  { apply Hlen. destruct rows; [congruence|simpl; auto]. }
  clear E Hload Hw. destruct rows as [|row0 rest]; [congruence|]. simpl in L0.
  destruct (Nat.ltb_spec (length row0) 3); [lia|].
  rewrite L0. replace (dim + 2 - 2) with dim by lia. rewrite to_unsigned_small by (unfold small in *; lia).
  generalize (row0 :: rest), (@nil S, @nil S, @nil (list S)).
  induction l as [|row l IH]; intros acc; simpl; auto.
  destruct (field_at row 1); simpl; auto. destruct (field_at row 2); simpl; auto.
  destruct (read_vector atof 2 dim row); simpl; auto.
Qed.

Print Assumptions C45_write_then_load.
Print Assumptions C46_times_are_first_entries.
Print Assumptions C46_two_times.
