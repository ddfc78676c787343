(** * The solver used for spline fits: QR decomposition with column pivoting

    PolynomialSplineContainer.tpp 314 and 391 and polynomial_splines_traits.hpp 198,
    242 and 288 call [A.colPivHouseholderQr().solve(b)].  The class belongs to Eigen,
    which is not part of the sources; what is modelled here is its algorithm in exact
    arithmetic.  In step k the remaining column with the largest remaining norm is
    swapped with the first remaining column, a reflection makes it a multiple of the
    k-th unit vector, and the same reflection is applied to the other columns and to the
    right hand side.  The decomposition stops when all remaining columns are zero, at the
    latest after as many steps as there are rows or columns.
    Solving substitutes backwards and sets the unknowns of the columns never chosen to
    zero.

    Simplifications: instead of reflecting, the part along the chosen column is
    subtracted from the remaining columns; the remaining norms, and the entries of the
    triangular matrix up to the sign of a row, are the same.  Eigen compares norms
    (updated from step to step) instead of their squares, and calls a column zero if its
    norm is below a threshold proportional to the machine precision.  Of several columns
    with the same norm the first one is taken. *)

From Coq Require Import List Reals Lra Lia Bool Arith ZArith QArith Permutation.
From Verif Require Import Num TimeInst Spline LinSpec BasicSolver.
Import ListNotations.

Section ColPiv.
Context {S : Type} `{Num S}.
Local Open Scope num_scope.

(** A column: its index in the matrix and what remains of its entries.
    PolynomialSplineContainer.tpp lines 314 and 391 (inside Eigen, as all of this section). *)
Definition column := (nat * list S)%type.

(** The squared norm of a column; PolynomialSplineContainer.tpp lines 314 and 391. *)
Definition square (v : list S) : S := inner_product v v #0.

(** Position of the largest remaining norm (tail(cols - k).maxCoeff).
    PolynomialSplineContainer.tpp lines 314 and 391. *)
Fixpoint argmax (cols : list column) (i best : nat) (norm : S) : nat :=
  match cols with
  | [] => best
  | c :: r => if nltb norm (square (snd c)) then argmax r (i + 1) i (square (snd c)) else argmax r (i + 1) best norm
  end.

(** Choose a column, and swap it with the first one; [None] if all are zero.
    PolynomialSplineContainer.tpp lines 314 and 391. *)
Definition choose (cols : list column) : option (column * list column) :=
  match cols with
  | [] => None
  | c :: r =>
      let k := argmax r 1 0 (square (snd c)) in
      let p := nth k cols c in
      if neqb (square (snd p)) #0 then None
      else Some (p, match k with O => r | Datatypes.S i => firstn i r ++ c :: skipn (Datatypes.S i) r end)
  end.

(** Subtract from [v] its part along [q]. PolynomialSplineContainer.tpp lines 314 and 391. *)
Definition project (q v : list S) : list S :=
  let f := inner_product v q #0 / square q in map (fun ab => fst ab - f * snd ab) (combine v q).

(** The unknown of column [j]; PolynomialSplineContainer.tpp lines 314 and 391. *)
Definition entry (j : nat) (x : list (nat * S)) : S :=
  match find (fun p => Nat.eqb (fst p) j) x with Some p => snd p | None => #0 end.

(** [sum of x_i (a_i . q)] over the remaining columns: a row of the triangular matrix
    times the unknowns already found. PolynomialSplineContainer.tpp lines 314 and 391. *)
Definition back (q : list S) (cols : list column) (x : list (nat * S)) : S :=
  fold_right (fun c s => entry (fst c) x * inner_product (snd c) q #0 + s) #0 cols.

(** The unknowns of the chosen columns, by column index.
    PolynomialSplineContainer.tpp lines 314 and 391. *)
Fixpoint qr (fuel : nat) (cols : list column) (b : list S) : list (nat * S) :=
  match fuel with
  | O => []
  | Datatypes.S fuel' =>
      match choose cols with
      | None => []
      | Some ((j, q), rest) =>
          let x := qr fuel' (map (fun c => (fst c, project q (snd c))) rest) (project q b) in
          (j, (inner_product b q #0 - back q rest x) / square q) :: x
      end
  end.

(** The columns of a matrix with [n] columns. PolynomialSplineContainer.tpp lines 314 and 391. *)
Definition columns (n : nat) (A : list (list S)) : list column :=
  map (fun j => (j, map (fun r => nth j r #0) A)) (seq 0 n).

(** [A.colPivHouseholderQr().solve(b)], PolynomialSplineContainer.tpp lines 314 and 391. *)
Definition pivoted (n : nat) (A : list (list S)) (b : list S) : list S :=
  let x := qr (Nat.min n (length A)) (columns n A) b in map (fun j => entry j x) (seq 0 n).

End ColPiv.

Local Open Scope R_scope.

(** ** It solves every solvable system, always with the same columns *)

Lemma ip_dot a b : inner_product a b (nofZ 0) = dot a b.
Proof. rewrite inner_product_dot. numR. ring. Qed.

Lemma square_dot (v : list R) : square v = dot v v.
Proof. apply ip_dot. Qed.

Lemma dot_sym a : forall b, dot a b = dot b a.
Proof. induction a as [|x a IH]; intros [|y b]; cbn; auto. rewrite IH. ring. Qed.

Lemma dot_nil a : dot a [] = 0.
Proof. now destruct a. Qed.

Lemma dot_self a : 0 <= dot a a.
Proof. induction a as [|x a IH]; cbn; [lra|nra]. Qed.

Lemma dot_self_zero a : dot a a = 0 -> forall z, dot a z = 0.
Proof.
  induction a as [|x a IH]; cbn; intros E z; [reflexivity|]. pose proof (dot_self a).
  assert (E1 : x = 0) by nra. assert (E2 : dot a a = 0) by nra. destruct z as [|y z]; [reflexivity|].
  rewrite E1, (IH E2). ring.
Qed.

Lemma project_dot (q v z : list R) : length v = length q ->
  dot (project q v) z = dot v z - dot v q / dot q q * dot q z.
Proof. intros L. unfold project. rewrite ip_dot, square_dot. numR. now apply dot_sub. Qed.

Lemma project_length (q v : list R) : length v = length q -> length (project q v) = length q.
Proof. intros L. unfold project. rewrite map_length, combine_length. lia. Qed.

(** *** The choice *)

Lemma argmax_spec (cols : list (column (S:=R))) : forall i best norm, (best < i)%nat ->
  let k := argmax cols i best norm in
  (k = best /\ (forall c, In c cols -> square (snd c) <= norm)) \/
  (exists m c, k = (i + m)%nat /\ nth_error cols m = Some c /\ norm < square (snd c) /\
    forall c', In c' cols -> square (snd c') <= square (snd c)).
Proof.
  induction cols as [|c cols IH]; intros i best norm Hb k; [left; split; [reflexivity|intros ? []]|].
  unfold k. cbn [argmax]. numR. destruct (Rltb norm (square (snd c))) eqn:E.
  - apply Rltb_lt in E. destruct (IH (i + 1)%nat i (square (snd c)) ltac:(lia)) as [[Ek Hm]|(m & c' & Ek & En & Hn & Hm)].
    + right. exists 0%nat, c. rewrite Ek. split; [lia|]. split; [reflexivity|]. split; [exact E|].
      intros c' [<-|Hc]; [lra|now apply Hm].
    + right. exists (1 + m)%nat, c'. rewrite Ek. split; [lia|]. split; [exact En|]. split; [lra|].
      intros c'' [<-|Hc]; [lra|now apply Hm].
  - apply Rltb_ge in E. destruct (IH (i + 1)%nat best norm ltac:(lia)) as [[Ek Hm]|(m & c' & Ek & En & Hn & Hm)].
    + left. split; [exact Ek|]. intros c' [<-|Hc]; [lra|now apply Hm].
    + right. exists (1 + m)%nat, c'. rewrite Ek. split; [lia|]. split; [exact En|]. split; [lra|].
      intros c'' [<-|Hc]; [lra|now apply Hm].
Qed.

Lemma swap_permutation {A} (l : list A) c m : (m < length l)%nat ->
  forall d, Permutation (c :: l) (nth m l d :: firstn m l ++ c :: skipn (S m) l).
Proof.
  revert m. induction l as [|a l IH]; intros m L d; cbn in L; [lia|]. destruct m as [|m].
  - cbn. apply perm_swap.
  - cbn [nth firstn skipn app]. eapply perm_trans; [apply perm_swap|].
    eapply perm_trans; [apply perm_skip, (IH m ltac:(lia) d)|]. apply perm_swap.
Qed.

Lemma choose_some (cols : list (column (S:=R))) p rest : choose cols = Some (p, rest) ->
  dot (snd p) (snd p) <> 0 /\ Permutation cols (p :: rest).
Proof.
  destruct cols as [|c r]; [discriminate|]. unfold choose.
  pose proof (argmax_spec r 1 0 (square (snd c)) ltac:(lia)) as Sp. cbv zeta in Sp.
  set (k := argmax r 1 0 (square (snd c))) in *.
  destruct (neqb (square (snd (nth k (c :: r) c))) #0%num) eqn:E; [discriminate|]. intros X.
  assert (E1 : nth k (c :: r) c = p) by congruence.
  assert (E2 : match k with O => r | S i => firstn i r ++ c :: skipn (S i) r end = rest) by congruence.
  split.
  - rewrite E1 in E. apply Reqb_neq in E. rewrite <- square_dot. exact E.
  - rewrite <- E1, <- E2. destruct Sp as [[-> _]|(m & c' & -> & En & _)]; [reflexivity|].
    cbn [Nat.add nth]. apply swap_permutation. apply nth_error_Some. congruence.
Qed.

Lemma choose_none (cols : list (column (S:=R))) : choose cols = None ->
  forall c, In c cols -> dot (snd c) (snd c) = 0.
Proof.
  destruct cols as [|c r]; [intros _ ? []|]. unfold choose.
  pose proof (argmax_spec r 1 0 (square (snd c)) ltac:(lia)) as Sp. cbv zeta in Sp.
  set (k := argmax r 1 0 (square (snd c))) in *.
  destruct (neqb (square (snd (nth k (c :: r) c))) #0%num) eqn:E; [|discriminate]. intros _.
  apply Reqb_eq in E. numR. intros c' Hc. pose proof (dot_self (snd c')) as Hp. rewrite <- square_dot in *.
  destruct Sp as [[Ek Hm]|(m & c1 & Ek & En & Hn & Hm)]; rewrite Ek in E; cbn [Nat.add nth] in E.
  - destruct Hc as [<-|Hc]; [lra|]. specialize (Hm c' Hc). lra.
  - rewrite (nth_error_nth r m c En) in E. pose proof (dot_self (snd c)) as Hp'. rewrite <- square_dot in Hp'. lra.
Qed.

(** *** Combinations of columns *)

(** Sum over columns. Not in the source: used in proofs. *)
Fixpoint csum (g : column (S:=R) -> R) (cols : list (column (S:=R))) : R :=
  match cols with [] => 0 | c :: r => g c + csum g r end.

Lemma csum_perm g a b : Permutation a b -> csum g a = csum g b.
Proof. induction 1; cbn; lra. Qed.

Lemma csum_ext g g' cols : (forall c, In c cols -> g c = g' c) -> csum g cols = csum g' cols.
Proof.
  induction cols as [|c cols IH]; intros E; cbn; [reflexivity|]. rewrite (E c), IH; [reflexivity| |now left].
  intros c' Hc. apply E. now right.
Qed.

Lemma csum_map g f cols : csum g (map f cols) = csum (fun c => g (f c)) cols.
Proof. induction cols; cbn; congruence. Qed.

Lemma csum_lin x y g g' cols : csum (fun c => x * g c + y * g' c) cols = x * csum g cols + y * csum g' cols.
Proof. induction cols as [|c cols IH]; cbn; [ring|]. rewrite IH. ring. Qed.

Lemma csum_zero cols : csum (fun _ => 0) cols = 0.
Proof. induction cols as [|c cols IH]; cbn; [reflexivity|]. rewrite IH. ring. Qed.

(** [b] is the combination of the columns with factors [y], tested against all vectors.
    Not in the source: used in proofs. *)
Definition combines (y : nat -> R) (cols : list (column (S:=R))) (b : list R) : Prop :=
  forall z, dot b z = csum (fun c => y (fst c) * dot (snd c) z) cols.

(** Not in the source: used in proofs. *)
Definition uniform (m : nat) (cols : list (column (S:=R))) : Prop := Forall (fun c => length (snd c) = m) cols.

(** Not in the source: used in proofs. *)
Definition projected (q : list R) (cols : list (column (S:=R))) : list column :=
  map (fun c => (fst c, project q (snd c))) cols.

Lemma projected_uniform m q cols : length q = m -> uniform m cols -> uniform m (projected q cols).
Proof.
  intros Lq Hu. apply Forall_map. eapply Forall_impl; [|exact Hu]. cbn. intros c Hc.
  rewrite project_length; congruence.
Qed.

Lemma projected_sum (y : nat -> R) q z m cols : length q = m -> uniform m cols ->
  csum (fun c => y (fst c) * dot (snd c) z) (projected q cols) =
  csum (fun c => y (fst c) * dot (snd c) z) cols -
  csum (fun c => y (fst c) * dot (snd c) q) cols / dot q q * dot q z.
Proof.
  intros Lq Hu. unfold projected. rewrite csum_map. cbn [fst snd].
  rewrite (csum_ext _ (fun c => 1 * (y (fst c) * dot (snd c) z) + (- (/ dot q q * dot q z)) * (y (fst c) * dot (snd c) q))).
  - rewrite csum_lin. unfold Rdiv. ring.
  - intros c Hc. rewrite project_dot by (rewrite Lq; revert c Hc; now apply Forall_forall). unfold Rdiv. ring.
Qed.

Lemma combines_projected y j q rest b m : length q = m -> length b = m -> uniform m rest -> dot q q <> 0 ->
  combines y ((j, q) :: rest) b -> combines y (projected q rest) (project q b).
Proof.
  intros Lq Lb Hu Hq Hc z. rewrite project_dot by congruence. rewrite (projected_sum y q z m) by auto.
  rewrite (Hc z), (Hc q). cbn [csum fst snd]. field. exact Hq.
Qed.

Lemma back_csum q cols x : back q cols x = csum (fun c => entry (fst c) x * dot (snd c) q) cols.
Proof. unfold back. induction cols as [|c cols IH]; cbn [fold_right csum]; [reflexivity|]. rewrite IH, ip_dot. reflexivity. Qed.

(** The chosen columns. Not in the source: used in proofs. *)
Fixpoint chosen (fuel : nat) (cols : list (column (S:=R))) : list nat :=
  match fuel with
  | O => []
  | S fuel' =>
      match choose cols with
      | None => []
      | Some ((j, q), rest) => j :: chosen fuel' (projected q rest)
      end
  end.

Lemma qr_chosen fuel : forall cols b, map fst (qr fuel cols b) = chosen fuel cols.
Proof.
  induction fuel as [|fuel IH]; intros cols b; cbn [qr chosen]; [reflexivity|].
  destruct (choose cols) as [[[j q] rest]|]; [|reflexivity]. cbn [map fst]. f_equal. apply IH.
Qed.

Lemma entry_missing j (x : list (nat * R)) : ~ In j (map fst x) -> entry j x = 0.
Proof.
  intros Hn. unfold entry. destruct (find _ x) as [p|] eqn:E; [|reflexivity].
  apply find_some in E as [Hi E]. apply Nat.eqb_eq in E. destruct Hn. subst. now apply in_map.
Qed.

Lemma entry_other i j v (x : list (nat * R)) : i <> j -> entry i ((j, v) :: x) = entry i x.
Proof. intros Hn. unfold entry. cbn [find fst]. destruct (Nat.eqb_spec j i); [congruence|reflexivity]. Qed.

Lemma entry_same j v (x : list (nat * R)) : entry j ((j, v) :: x) = v.
Proof. unfold entry. cbn [find fst]. now rewrite Nat.eqb_refl. Qed.

Lemma chosen_in fuel : forall cols j, In j (chosen fuel cols) -> In j (map fst cols).
Proof.
  induction fuel as [|fuel IH]; intros cols j Hj; cbn [chosen] in Hj; [destruct Hj|].
  destruct (choose cols) as [[[i q] rest]|] eqn:E; [|destruct Hj]. apply choose_some in E as [_ Hp].
  apply (Permutation_in j (Permutation_map fst (Permutation_sym Hp))). cbn [map fst].
  destruct Hj as [<-|Hj]; [now left|right]. apply IH in Hj. unfold projected in Hj. now rewrite map_map in Hj.
Qed.

(** The result solves the system. *)
Lemma qr_exact m : forall fuel cols b, (length cols <= fuel)%nat -> uniform m cols -> length b = m ->
  NoDup (map fst cols) -> (exists y, combines y cols b) -> combines (fun j => entry j (qr fuel cols b)) cols b.
Proof.
  induction fuel as [|fuel IH]; intros cols b Hf Hu Lb Hd (y & Hy).
  { destruct cols; [|cbn in Hf; lia]. exact Hy. }
  cbn [qr]. destruct (choose cols) as [[[j q] rest]|] eqn:E.
  - apply choose_some in E as [Hq Hp]. cbn [snd] in Hq.
    pose proof (Permutation_Forall Hp Hu) as Hu'. inversion Hu' as [|? ? Lq Hur]; subst. cbn [snd] in Lq.
    pose proof (Permutation_NoDup (Permutation_map fst Hp) Hd) as Hd'. cbn [map fst] in Hd'.
    inversion Hd' as [|? ? Hn Hdr]; subst.
    assert (Hy' : combines y ((j, q) :: rest) b) by (intros z; rewrite (Hy z); now apply csum_perm).
    fold (projected q rest). set (x := qr fuel (projected q rest) (project q b)).
    assert (Ef : map fst (projected q rest) = map fst rest) by (unfold projected; now rewrite map_map).
    assert (Hx : combines (fun i => entry i x) (projected q rest) (project q b)).
    { apply IH.
      - unfold projected. rewrite map_length. pose proof (Permutation_length Hp) as Hl. cbn [length] in Hl. unfold column in *. lia.
      - now apply projected_uniform.
      - rewrite project_length; congruence.
      - now rewrite Ef.
      - exists y. now apply (combines_projected y j q rest b (length b)). }
    intros z. rewrite (csum_perm _ _ _ Hp). cbn [csum fst snd]. rewrite entry_same.
    rewrite (csum_ext _ (fun c => entry (fst c) x * dot (snd c) z)).
    2:{ intros c Hc. rewrite entry_other; [reflexivity|]. intros Ej. apply Hn. rewrite <- Ej. now apply in_map. }
    rewrite back_csum, ip_dot, square_dot. numR.
    specialize (Hx z). rewrite project_dot, (projected_sum (fun i => entry i x) q z (length b)) in Hx by auto.
    set (s1 := csum (fun c => entry (fst c) x * dot (snd c) z) rest) in *.
    set (s2 := csum (fun c => entry (fst c) x * dot (snd c) q) rest) in *.
    replace (dot b z) with (s1 - s2 / dot q q * dot q z + dot b q / dot q q * dot q z) by (rewrite <- Hx; ring).
    field. exact Hq.
  - pose proof (choose_none _ E) as H0. intros z. rewrite (Hy z). apply csum_ext. intros c Hc.
    rewrite (dot_self_zero _ (H0 c Hc)). ring.
Qed.

(** The chosen columns are linearly independent. *)
Lemma chosen_independent m : forall fuel cols (y : nat -> R), (length cols <= fuel)%nat -> uniform m cols ->
  NoDup (map fst cols) -> (forall j, ~ In j (chosen fuel cols) -> y j = 0) ->
  combines y cols (repeat 0 m) -> forall j, In j (map fst cols) -> y j = 0.
Proof.
  assert (Zd : forall k z, dot (repeat 0 k) z = 0).
  { induction k as [|k IH]; intros [|u z]; cbn; try reflexivity. rewrite IH. ring. }
  induction fuel as [|fuel IH]; intros cols y Hf Hu Hd Hy Hc.
  { destruct cols; [intros ? []|cbn in Hf; lia]. }
  cbn [chosen] in Hy. destruct (choose cols) as [[[j q] rest]|] eqn:E; [|intros i _; apply Hy; intros []].
  apply choose_some in E as [Hq Hp]. cbn [snd] in Hq.
  pose proof (Permutation_Forall Hp Hu) as Hu'. inversion Hu' as [|? ? Lq Hur]; subst. cbn [snd] in *.
  pose proof (Permutation_NoDup (Permutation_map fst Hp) Hd) as Hd'. cbn [map fst] in Hd'.
  inversion Hd' as [|? ? Hn Hdr]; subst.
  assert (Ef : map fst (projected q rest) = map fst rest) by (unfold projected; now rewrite map_map).
  assert (Hc' : forall z, csum (fun c => y (fst c) * dot (snd c) z) ((j, q) :: rest) = 0).
  { intros z. rewrite <- (csum_perm _ _ _ Hp), <- (Hc z). apply Zd. }
  set (y' := fun i => if Nat.eqb i j then 0 else y i : R).
  assert (Hr : forall i, In i (map fst rest) -> y' i = y i).
  { intros i Hi. unfold y'. destruct (Nat.eqb_spec i j) as [->|_]; [contradiction|reflexivity]. }
  assert (Hrest : forall i, In i (map fst rest) -> y i = 0).
  { intros i Hi. rewrite <- (Hr i Hi). apply (IH (projected q rest)).
    - unfold projected. rewrite map_length. pose proof (Permutation_length Hp) as Hl. cbn [length] in Hl. unfold column in *. lia.
    - now apply projected_uniform.
    - now rewrite Ef.
    - intros k Hk. unfold y'. destruct (Nat.eqb_spec k j) as [->|Hne]; [reflexivity|]. apply Hy. intros [<-|Hk']; tauto.
    - intros z. rewrite Zd, (projected_sum y' q z (length q)) by auto.
      pose proof (Hc' z) as C1. pose proof (Hc' q) as C2. cbn [csum fst snd] in C1, C2.
      rewrite (csum_ext (fun c => y' (fst c) * dot (snd c) z) (fun c => y (fst c) * dot (snd c) z))
        by (intros c Hcc; rewrite Hr; [reflexivity|now apply in_map]).
      rewrite (csum_ext (fun c => y' (fst c) * dot (snd c) q) (fun c => y (fst c) * dot (snd c) q))
        by (intros c Hcc; rewrite Hr; [reflexivity|now apply in_map]).
      replace (csum (fun c => y (fst c) * dot (snd c) z) rest) with (- (y j * dot q z)) by lra.
      replace (csum (fun c => y (fst c) * dot (snd c) q) rest) with (- (y j * dot q q)) by lra. field. exact Hq.
    - now rewrite Ef. }
  intros i Hi. apply (Permutation_in i (Permutation_map fst Hp)) in Hi. destruct Hi as [<-|Hi]; [|now apply Hrest].
  cbn [fst]. pose proof (Hc' q) as C. cbn [csum fst snd] in C.
  rewrite (csum_ext _ (fun _ => 0)), csum_zero in C by (intros c Hcc; rewrite Hrest; [ring|now apply in_map]).
  assert (C' : y j * dot q q = 0) by lra. apply Rmult_integral in C'. tauto.
Qed.

(** *** Matrices *)

Lemma columns_fst n A : map fst (columns (S:=R) n A) = seq 0 n.
Proof. unfold columns. rewrite map_map. cbn. apply map_id. Qed.

Lemma columns_uniform n (A : list (list R)) : uniform (length A) (columns n A).
Proof. apply Forall_map, Forall_forall. intros j _. cbn. apply map_length. Qed.

Lemma dot_seq r : forall x : list R, length r = length x ->
  dot r x = fold_right Rplus 0 (map (fun j => nth j x 0 * nth j r 0) (seq 0 (length x))).
Proof.
  induction r as [|u r IH]; intros [|v x] L; cbn in L; try discriminate; [reflexivity|].
  cbn [dot length seq map fold_right nth]. rewrite (IH x) by lia. rewrite <- seq_shift, map_map. cbn [nth]. ring.
Qed.

Lemma csum_columns n (A : list (list R)) g : csum g (columns n A) =
  fold_right Rplus 0 (map (fun j => g (j, map (fun r => nth j r 0) A)) (seq 0 n)).
Proof. unfold columns. induction (seq 0 n) as [|j l IH]; cbn [map csum fold_right]; [reflexivity|]. now rewrite IH. Qed.

Lemma fold_lin (l : list nat) (f g : nat -> R) :
  fold_right Rplus 0 (map (fun j => f j + g j) l) = fold_right Rplus 0 (map f l) + fold_right Rplus 0 (map g l).
Proof. induction l as [|j l IH]; cbn; [ring|]. rewrite IH. ring. Qed.

Lemma fold_scale (l : list nat) k (f : nat -> R) :
  fold_right Rplus 0 (map (fun j => k * f j) l) = k * fold_right Rplus 0 (map f l).
Proof. induction l as [|j l IH]; cbn; [ring|]. rewrite IH. ring. Qed.

Lemma columns_combine n : forall (A : list (list R)) x, Forall (fun r => length r = n) A -> length x = n ->
  combines (fun j => nth j x 0) (columns n A) (mat_vec A x).
Proof.
  intros A x HA Lx z. rewrite csum_columns. cbn [fst snd]. revert z. induction HA as [|r A Hr HA IH]; intros z.
  - cbn [mat_vec map dot]. induction (seq 0 n) as [|j l IHl]; cbn in *; lra.
  - destruct z as [|u z].
    + rewrite dot_nil. symmetry. rewrite (map_ext _ (fun j => 0 * 0)) by (intros; rewrite dot_nil; ring).
      rewrite fold_scale. ring.
    + cbn [mat_vec map dot]. change (map (fun r => dot r x) A) with (mat_vec A x). rewrite (IH z).
      rewrite (map_ext (fun j => nth j x 0 * (nth j r 0 * u + dot (map (fun r0 => nth j r0 0) A) z))
        (fun j => u * (nth j x 0 * nth j r 0) + nth j x 0 * dot (map (fun r0 => nth j r0 0) A) z)) by (intros; ring).
      rewrite fold_lin, fold_scale, <- Lx, <- dot_seq by congruence. ring.
Qed.

Lemma dot_all a : forall b, length a = length b -> (forall z, dot a z = dot b z) -> a = b.
Proof.
  induction a as [|u a IH]; intros [|v b] L E; cbn in L; try discriminate; [reflexivity|].
  assert (E0 : u = v).
  { specialize (E [1]). cbn in E. replace (dot a []) with 0 in E by now destruct a.
    replace (dot b []) with 0 in E by now destruct b. lra. }
  f_equal; [exact E0|]. apply IH; [lia|]. intros z. specialize (E (0 :: z)). cbn in E. lra.
Qed.

Lemma combines_eq y cols a b : length a = length b -> combines y cols a -> combines y cols b -> a = b.
Proof. intros L H1 H2. apply dot_all; [exact L|]. intros z. now rewrite H1, H2. Qed.

Lemma combines_ext y y' cols b : (forall j, In j (map fst cols) -> y j = y' j) -> combines y cols b -> combines y' cols b.
Proof. intros E Hc z. rewrite (Hc z). apply csum_ext. intros c Hcc. rewrite E; [reflexivity|now apply in_map]. Qed.

(** *** As many steps as rows are enough *)

(** Not in the source: vectors of length [m], not zero, orthogonal to each other. *)
Fixpoint orthogonal (m : nat) (Q : list (list R)) : Prop :=
  match Q with
  | [] => True
  | q :: Q' => length q = m /\ dot q q <> 0 /\ (forall p, In p Q' -> dot q p = 0) /\ orthogonal m Q'
  end.

Lemma bessel m Q : orthogonal m Q -> forall v, length v = m ->
  fold_right Rplus 0 (map (fun q => dot v q * dot v q / dot q q) Q) <= dot v v.
Proof.
  induction Q as [|q Q IH]; intros HQ v Lv; cbn [map fold_right]; [apply dot_self|].
  destruct HQ as (Lq & Hq & Ho & HQ). pose proof (IH HQ (project q v)) as B. rewrite project_length in B by congruence.
  specialize (B Lq).
  assert (E1 : map (fun p => dot (project q v) p * dot (project q v) p / dot p p) Q = map (fun p => dot v p * dot v p / dot p p) Q).
  { apply map_ext_in. intros p Hp. rewrite project_dot by congruence. rewrite (Ho p Hp). f_equal. ring. }
  rewrite E1 in B. clear E1.
  assert (E2 : dot (project q v) (project q v) = dot v v - dot v q * dot v q / dot q q).
  { rewrite project_dot by congruence. rewrite (dot_sym v (project q v)), (dot_sym q (project q v)).
    rewrite !project_dot by congruence. rewrite (dot_sym q v) at 1. field. exact Hq. }
  rewrite E2 in B. lra.
Qed.

(** Not in the source: a unit vector of length [m]. *)
Definition unit_vec (m j : nat) : list R := repeat 0 j ++ 1 :: repeat 0 (m - j - 1).

Lemma dot_zeros k : forall v, dot (repeat 0 k) v = 0.
Proof. induction k as [|k IH]; intros [|x v]; cbn; try reflexivity. rewrite IH. ring. Qed.

Lemma unit_dot j : forall m v, dot (unit_vec m j) v = nth j v 0.
Proof.
  unfold unit_vec. intros m v. generalize (m - j - 1)%nat as k. intros k. revert v.
  induction j as [|j IH]; intros [|x v]; cbn [repeat app dot nth]; try reflexivity.
  - rewrite dot_zeros. ring.
  - rewrite IH. ring.
Qed.

Lemma unit_self m j : dot (unit_vec m j) (unit_vec m j) = 1.
Proof.
  rewrite unit_dot. unfold unit_vec. rewrite app_nth2; rewrite repeat_length; [|lia]. now rewrite Nat.sub_diag.
Qed.

Lemma dot_coords q : dot q q = fold_right Rplus 0 (map (fun j => nth j q 0 * nth j q 0) (seq 0 (length q))).
Proof. now rewrite dot_seq. Qed.

Lemma fold_swap {A B} (f : A -> B -> R) (la : list A) (lb : list B) :
  fold_right Rplus 0 (map (fun a => fold_right Rplus 0 (map (f a) lb)) la) =
  fold_right Rplus 0 (map (fun b => fold_right Rplus 0 (map (fun a => f a b) la)) lb).
Proof.
  induction la as [|a la IH]; cbn [map fold_right].
  - induction lb as [|b lb IHb]; cbn; [reflexivity|]. rewrite <- IHb. ring.
  - rewrite IH. clear IH. induction lb as [|b lb IHb]; cbn [map fold_right]; [ring|]. rewrite <- IHb. ring.
Qed.

Lemma fold_le {A} (f g : A -> R) (l : list A) : (forall a, In a l -> f a <= g a) ->
  fold_right Rplus 0 (map f l) <= fold_right Rplus 0 (map g l).
Proof.
  induction l as [|a l IH]; intros Hl; cbn; [lra|]. pose proof (Hl a (or_introl eq_refl)).
  assert (forall b, In b l -> f b <= g b) as Hl' by (intros b Hb; apply Hl; now right). specialize (IH Hl'). lra.
Qed.

Lemma fold_ones {A} (l : list A) : fold_right Rplus 0 (map (fun _ => 1) l) = INR (length l).
Proof. induction l as [|a l IH]; [reflexivity|]. cbn [map fold_right length]. rewrite IH, S_INR. ring. Qed.

Lemma orthogonal_in m Q : orthogonal m Q -> forall q, In q Q -> length q = m /\ dot q q <> 0.
Proof. induction Q as [|p Q IH]; [intros _ ? []|]. intros (L & D & _ & HQ) q [<-|Hq]; auto. Qed.

Lemma orthogonal_length m Q : orthogonal m Q -> (length Q <= m)%nat.
Proof.
  intros HQ. apply INR_le. rewrite <- (fold_ones Q), <- (seq_length m 0), <- (fold_ones (seq 0 m)).
  rewrite (map_ext_in (fun _ => 1) (fun q => fold_right Rplus 0 (map (fun j => nth j q 0 * nth j q 0 / dot q q) (seq 0 m)))).
  - rewrite fold_swap. apply fold_le. intros j Hj. apply in_seq in Hj.
    pose proof (bessel m Q HQ (unit_vec m j)) as B. rewrite unit_self in B.
    rewrite (map_ext (fun q => dot (unit_vec m j) q * dot (unit_vec m j) q / dot q q) (fun q => nth j q 0 * nth j q 0 / dot q q)) in B
      by (intros q; now rewrite unit_dot).
    apply B. unfold unit_vec. rewrite app_length. cbn [length]. rewrite !repeat_length. lia.
  - intros q Hq. destruct (orthogonal_in m Q HQ q Hq) as [Lq Dq].
    rewrite (map_ext (fun j => nth j q 0 * nth j q 0 / dot q q) (fun j => / dot q q * (nth j q 0 * nth j q 0))) by (intros; unfold Rdiv; ring).
    rewrite fold_scale, <- Lq, <- dot_coords. field. exact Dq.
Qed.

Lemma qr_rows m : forall fuel cols Q b k, uniform m cols -> orthogonal m Q ->
  (forall c q, In c cols -> In q Q -> dot (snd c) q = 0) -> (m <= length Q + fuel)%nat ->
  qr (fuel + k) cols b = qr fuel cols b.
Proof.
  induction fuel as [|fuel IH]; intros cols Q b k Hu HQ Ho Hm.
  - destruct k as [|k]; [reflexivity|]. cbn [Nat.add qr]. destruct (choose cols) as [[[j q] rest]|] eqn:E; [|reflexivity].
    exfalso. apply choose_some in E as [Hq Hp]. cbn [snd] in Hq.
    assert (Hi : In (j, q) cols) by (apply (Permutation_in _ (Permutation_sym Hp)); now left).
    assert (X : orthogonal m (q :: Q)).
    { split; [exact (proj1 (Forall_forall _ _) Hu _ Hi)|]. split; [exact Hq|]. split; [|exact HQ].
      intros p Hpp. exact (Ho _ p Hi Hpp). }
    apply orthogonal_length in X. cbn [length] in X. lia.
  - cbn [Nat.add qr]. destruct (choose cols) as [[[j q] rest]|] eqn:E; [|reflexivity].
    apply choose_some in E as [Hq Hp]. cbn [snd] in Hq.
    assert (Hi : In (j, q) cols) by (apply (Permutation_in _ (Permutation_sym Hp)); now left).
    pose proof (proj1 (Forall_forall _ _) Hu _ Hi) as Lq. cbn [snd] in Lq.
    assert (Hur : uniform m rest) by (pose proof (Permutation_Forall Hp Hu) as X; now inversion X).
    fold (projected q rest). rewrite (IH (projected q rest) (q :: Q)); [reflexivity|now apply projected_uniform| | |cbn [length]; lia].
    + split; [exact Lq|]. split; [exact Hq|]. split; [|exact HQ]. intros p Hpp. exact (Ho _ p Hi Hpp).
    + intros c p Hc Hpp. unfold projected in Hc. apply in_map_iff in Hc as (c0 & <- & Hc0). cbn [snd].
      assert (Hc1 : In c0 cols) by (apply (Permutation_in _ (Permutation_sym Hp)); now right).
      rewrite project_dot by (rewrite Lq; exact (proj1 (Forall_forall _ _) Hur _ Hc0)).
      destruct Hpp as [<-|Hpp]; [field; exact Hq|]. rewrite (Ho _ p Hi Hpp : dot q p = 0), (Ho _ p Hc1 Hpp). ring.
Qed.

Lemma qr_min n (A : list (list R)) b : qr (Nat.min n (length A)) (columns n A) b = qr n (columns n A) b.
Proof.
  destruct (Nat.le_gt_cases n (length A)) as [L|L]; [now rewrite Nat.min_l by lia|]. rewrite Nat.min_r by lia.
  replace n with (length A + (n - length A))%nat at 2 by lia. symmetry.
  apply (qr_rows (length A) (length A) _ []); [apply columns_uniform|exact I|intros ? ? _ []|cbn; lia].
Qed.

Lemma pivoted_nth n (A : list (list R)) b j : (j < n)%nat -> nth j (pivoted n A b) 0 = entry j (qr n (columns n A) b).
Proof.
  intros L. unfold pivoted. cbv zeta. rewrite qr_min. rewrite (nth_indep _ 0 (entry 0%nat (qr n (columns n A) b))) by (rewrite map_length, seq_length; lia).
  rewrite (map_nth (fun j => entry j (qr n (columns n A) b)) (seq 0 n) 0%nat). now rewrite seq_nth by lia.
Qed.

Lemma pivoted_length n (A : list (list R)) b : length (pivoted n A b) = n.
Proof. unfold pivoted. cbv zeta. now rewrite map_length, seq_length. Qed.

Lemma columns_length n (A : list (list R)) : length (columns n A) = n.
Proof. unfold columns. now rewrite map_length, seq_length. Qed.

Lemma pivoted_exact : exact_solver pivoted.
Proof.
  intros n A b HA Lb (x & Lx & Ex). split; [apply pivoted_length|].
  apply (combines_eq (fun j => nth j (pivoted n A b) 0) (columns n A)).
  - unfold mat_vec. now rewrite map_length.
  - apply columns_combine; [exact HA|apply pivoted_length].
  - apply (combines_ext (fun j => entry j (qr n (columns n A) b))).
    + intros j Hj. rewrite columns_fst in Hj. apply in_seq in Hj. symmetry. apply pivoted_nth. lia.
    + apply (qr_exact (length A)).
      * now rewrite columns_length.
      * apply columns_uniform.
      * exact Lb.
      * rewrite columns_fst. apply seq_NoDup.
      * exists (fun j => nth j x 0). rewrite <- Ex. now apply columns_combine.
Qed.

Theorem pivoted_basic : basic_solver pivoted.
Proof.
  split; [exact pivoted_exact|]. intros n A HA.
  exists (fun j => if in_dec Nat.eq_dec j (chosen n (columns n A)) then true else false).
  split.
  - intros b Lb _ j Hj. destruct (in_dec Nat.eq_dec j _) as [|Hn]; [discriminate|].
    destruct (Nat.lt_ge_cases j n) as [L|L]; [|apply nth_overflow; rewrite pivoted_length; lia].
    rewrite pivoted_nth by exact L. apply entry_missing. now rewrite qr_chosen.
  - intros x Lx Hs Hz.
    assert (Z : forall j, In j (map fst (columns n A)) -> nth j x 0 = 0).
    { apply (chosen_independent (length A) n); [now rewrite columns_length|apply columns_uniform| | |].
      - rewrite columns_fst. apply seq_NoDup.
      - intros j Hj. apply Hs. destruct (in_dec Nat.eq_dec j _); [contradiction|reflexivity].
      - rewrite <- Hz. now apply columns_combine. }
    apply (nth_ext _ _ 0 0); [now rewrite repeat_length|]. intros j Hj. rewrite nth_repeat. apply Z.
    rewrite columns_fst. apply in_seq. lia.
Qed.
