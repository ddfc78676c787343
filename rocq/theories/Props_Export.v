(** * C47, C58: writing curves to files *)

From Coq Require Import String.
From Coq Require Import List Bool Arith NArith ZArith Reals Lra Lia Ascii.
From Flocq Require Import Core IEEE754.BinarySingleNaN.
From Verif Require Import Base TimeOrder TimeB64 TimeInst KeyGen Manager ManagerSpec ManagerProofs ManagerProofs2
  SamplingProofs Num NumB64 Csv Sampling HermiteE3 HermiteE3Proofs Quat HermiteSE3 QuatSpec QuatLog HermiteSE3Spec HermiteB64 Export
  Props_Csv Props_HermiteE3 Props_HermiteSE3 Props_Binary64.
Import ListNotations.

(** ** Vocabulary *)

(** A line of numbers, each followed by a space; a file made of such lines. *)
Definition line {S} (show : S -> text) (xs : list S) : text :=
  concat (map (fun x => show x ++ [" "%char]) xs) ++ [newline].
Definition lines {S} (show : S -> text) (rows : list (list S)) : text := concat (map (line show) rows).

(** The times visited when stepping by [dt]. *)
Definition visited {S} `{Num S} (t dt : S) (i : nat) : S := Nat.iter i (fun t => nadd t dt) t.

Lemma print_row_line {S} (show : S -> text) xs : print_row show xs = line show xs.
Proof.
  unfold line. induction xs as [|x xs IH]; simpl; auto. rewrite IH, <- !app_assoc. reflexivity.
Qed.

Lemma visited_succ {S} `{Num S} (t dt : S) i : visited t dt (Datatypes.S i) = visited (nadd t dt) dt i.
Proof. unfold visited. simpl. induction i as [|i IH]; simpl; auto. now rewrite <- IH. Qed.

Lemma seq_succ_map {A} (f : nat -> A) k : map f (seq 0 (Datatypes.S k)) = f 0%nat :: map (fun i => f (Datatypes.S i)) (seq 0 k).
Proof. simpl. now rewrite <- seq_shift, map_map. Qed.

(** The loop as long as it goes on. *)
Lemma loop_steps {S} `{Num S} (show : S -> text) row tmax dt (f : nat -> list S) : forall k fuel t file,
  (forall i, (i < k)%nat -> nltb (visited t dt i) tmax = true /\ row (visited t dt i) = Ok (Some (f i))) ->
  sample_loop show row tmax dt (k + fuel) t file =
  sample_loop show row tmax dt fuel (visited t dt k) (file ++ lines show (map f (seq 0 k))).
Proof.
  intros k. revert f. induction k as [|k IH]; intros f fuel t file Hi.
  - simpl. unfold lines. simpl. now rewrite app_nil_r.
  - destruct (Hi 0%nat ltac:(lia)) as [L E]. change (visited t dt 0) with t in L, E.
    change (Datatypes.S k + fuel)%nat with (Datatypes.S (k + fuel)). cbn [sample_loop].
    rewrite L, E, (IH (fun i => f (Datatypes.S i))).
    + rewrite visited_succ, seq_succ_map, print_row_line. unfold lines. cbn [map concat].
      now rewrite <- app_assoc.
    + intros i Hik. rewrite <- visited_succ. apply Hi. lia.
Qed.

(** ... and when it ends. *)
Lemma loop_ends {S} `{Num S} (show : S -> text) row tmax dt (f : nat -> list S) k fuel t file :
  (forall i, (i < k)%nat -> nltb (visited t dt i) tmax = true /\ row (visited t dt i) = Ok (Some (f i))) ->
  nltb (visited t dt k) tmax = false -> (k < fuel)%nat ->
  sample_loop show row tmax dt fuel t file = Ended (Ok (file ++ lines show (map f (seq 0 k)), true)).
Proof.
  intros Hi He Hf. replace fuel with (k + Datatypes.S (fuel - k - 1))%nat by lia.
  rewrite (loop_steps show row tmax dt f) by exact Hi. cbn [sample_loop]. now rewrite He.
Qed.

Lemma visited_R (t dt : R) i : visited t dt i = (t + INR i * dt)%R.
Proof.
  induction i as [|i IH]; [simpl; lra|]. change (visited t dt (Datatypes.S i)) with (nadd (visited t dt i) dt).
  rewrite IH, S_INR. numR. ring.
Qed.

(** ** C47 *)

Local Open Scope R_scope.

(** The sampling times of [n] samples from [a] to [b]. *)
Definition sample_time (a b : R) (n : Z) (k : nat) : R := a + INR k * ((b - a) / IZR (n - 1)).

Lemma export_real (show : R -> text) row a b n fuel :
  (forall t, a <= t < b -> exists xs, row t = Ok (Some xs)) -> a < b ->
  (2 <= n <= int_max)%Z -> (Z.to_nat n <= fuel)%nat ->
  exists xs, (forall k, (k < Z.to_nat (n - 1))%nat ->
      row (sample_time a b n k) = Ok (Some (xs k)) /\ a <= sample_time a b n k < b) /\
    export show row a b n fuel =
    Ended (Ok (export_header ++ lines show (map xs (seq 0 (Z.to_nat (n - 1)))), true)).
Proof.
  intros Hrow Hab Hn Hf. set (N := Z.to_nat (n - 1)).
  assert (EN : IZR (n - 1) = INR N). { unfold N. rewrite INR_IZR_INZ, Z2Nat.id by lia. reflexivity. }
  assert (Hd : 0 < IZR (n - 1)) by (apply IZR_lt; lia).
  assert (Hin : forall k, (k < N)%nat -> a <= sample_time a b n k < b).
  { intros k Hk. apply lt_INR in Hk. pose proof (pos_INR k). unfold sample_time. rewrite <- EN in Hk.
    assert (X : INR k * ((b - a) / IZR (n - 1)) < IZR (n - 1) * ((b - a) / IZR (n - 1))).
    { apply Rmult_lt_compat_r; auto. apply Rdiv_lt_0_compat; lra. }
    assert (Y : 0 <= INR k * ((b - a) / IZR (n - 1))).
    { apply Rmult_le_pos; auto. left. apply Rdiv_lt_0_compat; lra. }
    replace (IZR (n - 1) * ((b - a) / IZR (n - 1))) with (b - a) in X by (field; lra). lra. }
  exists (fun k => match row (sample_time a b n k) with Ok (Some xs) => xs | _ => [] end).
  assert (Hr : forall k, (k < N)%nat -> row (sample_time a b n k) =
     Ok (Some match row (sample_time a b n k) with Ok (Some xs) => xs | _ => [] end)).
  { intros k Hk. destruct (Hrow _ (Hin k Hk)) as [xs ->]. reflexivity. }
  split; [intros k Hk; split; auto|].
  unfold export. destruct (Z.eqb_spec n int_min) as [->|_]; [unfold int_min, int_max in *; lia|].
  apply loop_ends.
  - intros i Hi. rewrite visited_R. split; [|exact (Hr i Hi)]. numR. apply Rltb_lt. apply (Hin i Hi).
  - rewrite visited_R. numR. apply Rltb_ge. rewrite <- EN. replace (IZR (n - 1) * ((b - a) / IZR (n - 1))) with (b - a) by (field; lra). lra.
  - unfold N. lia.
Qed.

Lemma e3_two_times (c : e3_curve R) : consistent c -> e3_min_time c < e3_max_time c -> e3_is_empty c = false.
Proof.
  intros _ Hlt. unfold e3_is_empty, e3_min_time, e3_max_time, min_time, max_time, last_node, get_times in *.
  destruct (nodes c); [simpl in Hlt; exfalso; revert Hlt; apply Rlt_irrefl|reflexivity].
Qed.

Lemma se3_two_times (c : se3_curve R) : se3_min_time c < se3_max_time c -> se3_is_empty c = false.
Proof.
  intros Hlt. unfold se3_is_empty, se3_min_time, se3_max_time, min_time, max_time, last_node, get_times in *.
  destruct (nodes (h_mgr c)); [simpl in Hlt; exfalso; revert Hlt; apply Rlt_irrefl|reflexivity].
Qed.

Lemma sample_row_inv {S A B} (ev : S -> outcome (option A)) (dv : S -> outcome (option B)) num t xs :
  sample_row ev dv num t = Ok (Some xs) ->
  exists p v, ev t = Ok (Some p) /\ dv t = Ok (Some v) /\ xs = t :: num p v.
Proof.
  unfold sample_row. destruct (ev t) as [[p|]| | |]; simpl; try discriminate.
  destruct (dv t) as [[v|]| | |]; simpl; try discriminate. intros [= <-]. eauto.
Qed.

Lemma sample_row_ok {S A B} (ev : S -> outcome (option A)) (dv : S -> outcome (option B)) num t p v :
  ev t = Ok (Some p) -> dv t = Ok (Some v) -> sample_row ev dv num t = Ok (Some (t :: num p v)).
Proof. intros E1 E2. unfold sample_row. rewrite E1. simpl. now rewrite E2. Qed.

(** At least two samples: the header and [n - 1] rows, the [k]-th at the [k]-th sampling
    time, all of them before the maximum time.  The loop ends after [n] tests. *)
Theorem C47_e3_rows : forall (show : R -> text) (c : e3_curve R) n fuel,
  consistent c -> e3_min_time c < e3_max_time c -> (2 <= n <= int_max)%Z -> (Z.to_nat n <= fuel)%nat ->
  exists rows, e3_write_eval show c n fuel = Ended (Ok (export_header ++ lines show rows, true)) /\
    length rows = Z.to_nat (n - 1) /\
    forall k, (k < Z.to_nat (n - 1))%nat ->
    exists p v, let t := sample_time (e3_min_time c) (e3_max_time c) n k in
      e3_evaluate c t = Ok (Some p) /\ e3_evaluate_derivative c t 1 = Ok (Some v) /\
      nth_error rows k = Some [t; vx p; vy p; vz p; vx v; vy v; vz v] /\
      e3_min_time c <= t < e3_max_time c.
Proof.
  intros show c n fuel Hc Hlt Hn Hf. unfold e3_write_eval.
  set (row := sample_row _ _ _).
  destruct (export_real show row (e3_min_time c) (e3_max_time c) n fuel) as (xs & Hxs & ->); auto.
  { intros t Ht. destruct (C37_domain c t Hc (e3_two_times c Hc Hlt)) as (A & _ & B & _).
    destruct (proj2 A) as [p Ep]; [lra|]. destruct (proj2 B) as [v Ev]; [lra|].
    eexists. unfold row. now apply sample_row_ok with (p := p) (v := v). }
  exists (map xs (seq 0 (Z.to_nat (n - 1)))). split; [reflexivity|]. rewrite map_length, seq_length. split; [reflexivity|].
  intros k Hk. destruct (Hxs k Hk) as [Er Ht]. apply sample_row_inv in Er as (p & v & Ep & Ev & Ex).
  exists p, v. cbn zeta. split; auto. split; auto. split; auto.
  erewrite map_nth_error by (apply (nth_error_nth' _ 0%nat); now rewrite seq_length). rewrite seq_nth by exact Hk.
  simpl. now rewrite Ex.
Qed.

Theorem C47_se3_rows : forall (show : R -> text) K (c : se3_curve R) n fuel,
  consistent (h_mgr c) -> se3_min_time c < se3_max_time c -> (2 <= n <= int_max)%Z -> (Z.to_nat n <= fuel)%nat ->
  exists rows, se3_write_eval show K c n fuel = Ended (Ok (export_header ++ lines show rows, true)) /\
    length rows = Z.to_nat (n - 1) /\
    forall k, (k < Z.to_nat (n - 1))%nat ->
    exists p v, let t := sample_time (se3_min_time c) (se3_max_time c) n k in
      se3_evaluate K c t = Ok (Some p) /\ se3_evaluate_derivative K c t 1 = Ok (Some v) /\
      nth_error rows k =
        Some [t; vx (p_pos p); vy (p_pos p); vz (p_pos p);
              qw (p_rot p); qx (p_rot p); qy (p_rot p); qz (p_rot p);
              vx (t_lin v); vy (t_lin v); vz (t_lin v); vx (t_ang v); vy (t_ang v); vz (t_ang v)] /\
      se3_min_time c <= t < se3_max_time c.
Proof.
  intros show K c n fuel Hc Hlt Hn Hf. unfold se3_write_eval.
  set (row := sample_row _ _ _).
  destruct (export_real show row (se3_min_time c) (se3_max_time c) n fuel) as (xs & Hxs & ->); auto.
  { intros t Ht. destruct (C37_se3_domain K c t Hc (se3_two_times c Hlt)) as (A & _ & B & _).
    destruct (proj2 A) as [p Ep]; [lra|]. destruct (proj2 B) as [v Ev]; [lra|].
    eexists. unfold row. now apply sample_row_ok with (p := p) (v := v). }
  exists (map xs (seq 0 (Z.to_nat (n - 1)))). split; [reflexivity|]. rewrite map_length, seq_length. split; [reflexivity|].
  intros k Hk. destruct (Hxs k Hk) as [Er Ht]. apply sample_row_inv in Er as (p & v & Ep & Ev & Ex).
  exists p, v. cbn zeta. split; auto. split; auto. split; auto.
  erewrite map_nth_error by (apply (nth_error_nth' _ 0%nat); now rewrite seq_length). rewrite seq_nth by exact Hk.
  simpl. now rewrite Ex.
Qed.

(** No samples or a negative number: one row, then failure. *)
Theorem C47_no_samples : forall (show : R -> text) (c : e3_curve R) n fuel,
  consistent c -> e3_min_time c < e3_max_time c -> (int_min < n <= 0)%Z -> (2 <= fuel)%nat ->
  exists p v, e3_evaluate c (e3_min_time c) = Ok (Some p) /\
    e3_evaluate_derivative c (e3_min_time c) 1 = Ok (Some v) /\
    e3_write_eval show c n fuel =
    Ended (Ok (export_header ++ line show [e3_min_time c; vx p; vy p; vz p; vx v; vy v; vz v], false)).
Proof.
  intros show c n fuel Hc Hlt Hn Hf. pose proof (e3_two_times c Hc Hlt) as Hne.
  destruct (C37_domain c (e3_min_time c) Hc Hne) as (A & _ & B & _).
  destruct (proj2 A) as [p Ep]; [lra|]. destruct (proj2 B) as [v Ev]; [lra|].
  exists p, v. split; auto. split; auto. unfold e3_write_eval, export.
  destruct (Z.eqb_spec n int_min) as [->|_]; [lia|].
  set (dt := (_ / _)%num). replace fuel with (1 + (1 + (fuel - 2)))%nat by lia. set (row := sample_row _ _ _).
  rewrite (loop_steps show row _ dt (fun _ => [e3_min_time c; vx p; vy p; vz p; vx v; vy v; vz v])).
  - cbn [Nat.add sample_loop].
    assert (Hd : dt < 0).
    { unfold dt. numR. unfold Rdiv. assert (X : / IZR (n - 1) < 0) by (apply Rinv_lt_0_compat, IZR_lt; lia). nra. }
    change (visited (e3_min_time c) dt 1) with (e3_min_time c + dt).
    replace (nltb _ _) with true by (symmetry; numR; apply Rltb_lt; lra).
    destruct (C37_domain c (e3_min_time c + dt) Hc Hne) as (_ & O & _).
    assert (X : row (e3_min_time c + dt) = Ok None).
    { unfold row, sample_row. rewrite O by lra. reflexivity. }
    rewrite X. unfold lines. simpl. rewrite app_nil_r. reflexivity.
  - intros i Hi. replace i with 0%nat by lia. change (visited (e3_min_time c) dt 0) with (e3_min_time c).
    split; [numR; now apply Rltb_lt|]. unfold row. now rewrite (sample_row_ok _ _ _ _ p v Ep Ev).
Qed.

(** One coefficient or none: only the header. *)
Theorem C47_no_range : forall (show : R -> text) (c : e3_curve R) n fuel,
  (e3_size c <= 1)%nat -> (int_min < n <= int_max)%Z -> (1 <= fuel)%nat ->
  e3_write_eval show c n fuel = Ended (Ok (export_header, true)).
Proof.
  intros show c n fuel Hs Hn Hf. unfold e3_write_eval, export.
  destruct (Z.eqb_spec n int_min) as [->|_]; [lia|]. destruct fuel as [|fuel]; [lia|]. cbn [sample_loop].
  replace (nltb _ _) with false; [reflexivity|]. symmetry. numR. apply Rltb_ge.
  unfold e3_size, size in Hs. unfold e3_min_time, e3_max_time, min_time, max_time, last_node.
  destruct (nodes c) as [|a [|b l]]; simpl in *; try lia; lra.
Qed.

(** The smallest [int] overflows. *)
Theorem C47_int_min : forall (show : R -> text) (c : e3_curve R) fuel, e3_write_eval show c int_min fuel = Ended UB.
Proof. reflexivity. Qed.

(** Binary64. *)

Definition finite_times (c : e3_curve b64) : Prop := forall t k, In (t, k) (contents c) -> is_finite t = true.

Lemma ends_of_contents (c : e3_curve b64) :
  min_time c = nth 0 (map fst (contents c)) tzero /\ max_time c = last (map fst (contents c)) tzero.
Proof.
  unfold contents, min_time, max_time, last_node. rewrite map_map. cbn [fst]. split.
  - now destruct (nodes c).
  - rewrite <- (rev_involutive (nodes c)) at 2. destruct (rev (nodes c)) as [|x r]; [reflexivity|].
    simpl. rewrite map_app. simpl. now rewrite last_last.
Qed.

Lemma b64_row (c : e3_curve b64) (s : b64) : consistent c -> (2 <= e3_size c)%nat -> finite_times c ->
  is_nan s = false -> nltb s (e3_min_time c) = false -> nltb (e3_max_time c) s = false ->
  exists p v, e3_evaluate c s = Ok (Some p) /\ e3_evaluate_derivative c s 1 = Ok (Some v).
Proof.
  intros Hc Hs Hf Hn Hl Hu. destruct (ends_of_contents c) as [E0 E1].
  destruct (lookup_range c (map fst (contents c)) s) as (u & ta & ka & tb & kb & r & n0 & n1 & _ & Eg & _); auto.
  - intros t Ht. apply in_map_iff in Ht as ([t' k] & <- & Hi). eapply Hf. exact Hi.
  - unfold contents. rewrite !map_length. exact Hs.
  - rewrite <- E0. exact Hl.
  - rewrite <- E1. exact Hu.
  - unfold e3_evaluate, e3_evaluate_derivative. cbn [N.eqb Pos.eqb].
    rewrite (ends_differ c s Hc Hs Hf), Eg. eauto.
Qed.

Lemma b64_ends (c : e3_curve b64) : consistent c -> (2 <= e3_size c)%nat -> finite_times c ->
  is_finite (e3_min_time c) = true /\ is_finite (e3_max_time c) = true /\
  nltb (e3_min_time c) (e3_max_time c) = true.
Proof.
  intros Hc Hs Hf. destruct (finite_lift c Hf) as [m Em]. unfold e3_min_time, e3_max_time.
  destruct (ends_of_contents c) as [E0 E1]. unfold e3_size, size in Hs.
  assert (L : (2 <= length (map fst (contents c)))%nat) by (unfold contents; now rewrite !map_length).
  assert (F : forall t, In t (map fst (contents c)) -> is_finite t = true).
  { intros t Ht. apply in_map_iff in Ht as ([t' k] & <- & Hi). eapply Hf. exact Hi. }
  assert (Hmin : is_finite (min_time c) = true).
  { rewrite E0. apply F, nth_In. lia. }
  assert (Hmax : is_finite (max_time c) = true).
  { rewrite E1. apply F. destruct (map fst (contents c)) as [|x l] using rev_ind; [simpl in L; lia|].
    rewrite last_last. apply in_or_app. simpl. auto. }
  split; auto. split; auto.
  rewrite E0, E1. pose proof (c_sorted _ Hc) as Hsort. unfold get_times in Hsort.
  assert (Eg : map fst (contents c) = map n_time (nodes c)) by (unfold contents; now rewrite map_map).
  rewrite Eg in *. destruct (map n_time (nodes c)) as [|x l]; [simpl in L; lia|]. simpl nth.
  apply Sorted.StronglySorted_inv in Hsort as [_ Hfa]. rewrite Forall_forall in Hfa.
  change (nltb x (last (x :: l) tzero)) with (tlt x (last (x :: l) tzero)). apply Hfa.
  destruct l as [|y l] using rev_ind; [simpl in L; lia|].
  change (x :: l ++ [y]) with ((x :: l) ++ [y]). rewrite last_last. apply in_or_app. simpl. auto.
Qed.

(** Exactly one row for one sample: the step is infinite. *)
Theorem C47_one_sample : forall (show : b64 -> text) (c : e3_curve b64) fuel,
  consistent c -> (2 <= e3_size c)%nat -> finite_times c -> (2 <= fuel)%nat ->
  exists p v, e3_evaluate c (e3_min_time c) = Ok (Some p) /\
    e3_evaluate_derivative c (e3_min_time c) 1 = Ok (Some v) /\
    e3_write_eval show c 1 fuel =
    Ended (Ok (export_header ++ line show [e3_min_time c; vx p; vy p; vz p; vx v; vy v; vz v], true)).
Proof.
  intros show c fuel Hc Hs Hf Hfu. destruct (b64_ends c Hc Hs Hf) as (F0 & F1 & Hlt).
  destruct (b64_row c (e3_min_time c) Hc Hs Hf) as (p & v & Ep & Ev).
  { now apply finite_not_nan. }
  { destruct (nltb (e3_min_time c) (e3_min_time c)) eqn:X; auto. apply (ltb_val _ _ _ _ (finite_val _ F0) (finite_val _ F0)) in X. lra. }
  { destruct (nltb (e3_max_time c) (e3_min_time c)) eqn:X; auto. apply (ltb_val _ _ _ _ (finite_val _ F1) (finite_val _ F0)) in X.
    apply (ltb_val _ _ _ _ (finite_val _ F0) (finite_val _ F1)) in Hlt. lra. }
  exists p, v. split; auto. split; auto. unfold e3_write_eval, export. cbn [Z.eqb int_min Z.opp Z.pow Z.pow_pos].
  change (Z.eqb 1 int_min) with false. cbn iota.
  set (row := sample_row _ _ _).
  assert (Hstep : nltb (visited (e3_min_time c) ((e3_max_time c - e3_min_time c) / #(1 - 1))%num 1) (e3_max_time c) = false).
  { set (a := e3_min_time c) in *. set (b := e3_max_time c) in *.
    replace (nofZ (1 - 1)) with (B754_zero false : b64) by (vm_compute; reflexivity).
    assert (X : ((b - a) / (B754_zero false : b64))%num = B754_infinity false).
    { destruct (is_finite (b - a)%num) eqn:Fd.
      - destruct (val_sub_pos _ _ _ _ (finite_val _ F1) (finite_val _ F0)
          (proj1 (ltb_val _ _ _ _ (finite_val _ F0) (finite_val _ F1)) Hlt) Fd) as (d & [_ Hd] & Hp).
        destruct (b - a)%num as [s| | |s m e Hb]; try discriminate; [simpl in Hd; lra|].
        destruct s; [exfalso|reflexivity]. simpl in Hd. rewrite <- Hd in Hp. revert Hp. apply Rle_not_lt.
        apply F2R_le_0. simpl. lia.
      - pose proof (Bminus_correct 53 1024 prec_gt_0_53 prec_lt_emax_53 mode_NE b a F1 F0) as P.
        destruct (Rlt_bool _ _) in P; [destruct P as (_ & P & _); cbn in Fd; congruence|].
        destruct P as [P Ps]. cbn [binary_overflow overflow_to_inf] in P.
        assert (Sb : Bsign b = false).
        { apply (ltb_val _ _ _ _ (finite_val _ F0) (finite_val _ F1)) in Hlt.
          destruct (Bsign b) eqn:E; auto. exfalso. destruct (Bsign a) eqn:Ea; [discriminate|].
          assert (B2R b <= 0). { destruct b as [[]| | |[]]; try discriminate; simpl; try lra. apply F2R_le_0. simpl. lia. }
          assert (0 <= B2R a). { destruct a as [[]| | |[]]; try discriminate; simpl; try lra. apply F2R_ge_0. simpl. lia. }
          lra. }
        rewrite Sb in P. change (Bminus mode_NE b a) with (b - a)%num in P.
        destruct (b - a)%num; try discriminate. injection P as ->. reflexivity. }
    rewrite X. change (visited a (B754_infinity false : b64) 1) with (a + (B754_infinity false : b64))%num.
    destruct a as [| | |]; try discriminate; destruct b as [|[]| |[]]; try discriminate; reflexivity. }
  rewrite (loop_ends show row _ _ (fun _ => [e3_min_time c; vx p; vy p; vz p; vx v; vy v; vz v]) 1).
  - unfold lines. simpl. now rewrite app_nil_r.
  - intros i Hi. replace i with 0%nat by lia. split; [exact Hlt|].
    unfold row. now apply sample_row_ok with (p := p) (v := v).
  - exact Hstep.
  - lia.
Qed.

(** If the step is lost when added to the minimum time, the loop never ends: it
    writes the same row again and again. *)
Theorem C47_never_ends : forall (show : b64 -> text) (c : e3_curve b64) n fuel,
  consistent c -> (2 <= e3_size c)%nat -> finite_times c -> (int_min < n <= int_max)%Z ->
  nadd (e3_min_time c) (ndiv (nsub (e3_max_time c) (e3_min_time c)) (nofZ (n - 1))) = e3_min_time c ->
  exists p v, e3_evaluate c (e3_min_time c) = Ok (Some p) /\
    e3_evaluate_derivative c (e3_min_time c) 1 = Ok (Some v) /\
    e3_write_eval show c n fuel =
    Running (export_header ++ lines show (repeat [e3_min_time c; vx p; vy p; vz p; vx v; vy v; vz v] fuel)).
Proof.
  intros show c n fuel Hc Hs Hf Hn Hst. destruct (b64_ends c Hc Hs Hf) as (F0 & F1 & Hlt).
  destruct (b64_row c (e3_min_time c) Hc Hs Hf) as (p & v & Ep & Ev).
  { now apply finite_not_nan. }
  { destruct (nltb (e3_min_time c) (e3_min_time c)) eqn:X; auto. apply (ltb_val _ _ _ _ (finite_val _ F0) (finite_val _ F0)) in X. lra. }
  { destruct (nltb (e3_max_time c) (e3_min_time c)) eqn:X; auto. apply (ltb_val _ _ _ _ (finite_val _ F1) (finite_val _ F0)) in X.
    apply (ltb_val _ _ _ _ (finite_val _ F0) (finite_val _ F1)) in Hlt. lra. }
  exists p, v. split; auto. split; auto. unfold e3_write_eval, export.
  destruct (Z.eqb_spec n int_min) as [->|_]; [lia|]. set (row := sample_row _ _ _).
  set (dt := (_ / _)%num) in *.
  assert (V : forall i, visited (e3_min_time c) dt i = e3_min_time c).
  { induction i as [|i IH]; [reflexivity|]. now rewrite visited_succ, Hst. }
  rewrite <- (Nat.add_0_r fuel) at 1.
  rewrite (loop_steps show row _ dt (fun _ => [e3_min_time c; vx p; vy p; vz p; vx v; vy v; vz v])).
  - cbn [sample_loop]. do 4 f_equal. clear. generalize 0%nat.
    induction fuel as [|k IH]; intros j; simpl; auto. now rewrite IH.
  - intros i _. rewrite V. split; [exact Hlt|]. unfold row. now apply sample_row_ok with (p := p) (v := v).
Qed.

(** This happens for a curve of one second at a time of day as of 2014 and ten million
    samples: no number of steps is enough. *)
Theorem C47_termination_refuted : exists (c : e3_curve b64) n,
  consistent c /\ (2 <= e3_size c)%nat /\ finite_times c /\ (2 <= n <= int_max)%Z /\
  forall show fuel, exists file, e3_write_eval show c n fuel = Running file.
Proof.
  set (k := Knot (dvec 0 0 0) (dvec 0 0 0)).
  destruct (two_curve (dbl 1400000000) (dbl 1400000001) k k) as [Hc Ec]; [reflexivity|].
  set (c := Mgr _ _ _) in *. exists c, 10000001%Z.
  assert (Hs : (2 <= e3_size c)%nat) by (apply Nat.le_refl).
  assert (Hf : finite_times c).
  { intros t k' Hi. rewrite Ec in Hi. destruct Hi as [[= <- _]|[[= <- _]|[]]]; reflexivity. }
  split; auto. split; auto. split; auto. split; [unfold int_max; lia|]. intros show fuel.
  destruct (C47_never_ends show c 10000001 fuel Hc Hs Hf) as (p & v & _ & _ & E); [unfold int_min, int_max; lia| |eauto].
  unfold c, e3_min_time, e3_max_time, min_time, max_time, last_node. cbn [nodes rev app n_time].
  apply B2SF_inj. vm_compute. reflexivity.
Qed.

(** The number of rows also depends on the rounding: from 0 to 1 with eleven samples, ten
    steps of a tenth end before 1, so that there are eleven rows. *)
Theorem C47_row_count_refuted : exists (c : e3_curve b64),
  consistent c /\ (2 <= e3_size c)%nat /\ finite_times c /\
  forall show fuel, (12 <= fuel)%nat ->
  exists rows, length rows = 11%nat /\
    e3_write_eval show c 11 fuel = Ended (Ok (export_header ++ lines show rows, true)).
Proof.
  set (k := Knot (dvec 0 0 0) (dvec 0 0 0)).
  destruct (two_curve (dbl 0) (dbl 1) k k) as [Hc Ec]; [reflexivity|].
  set (c := Mgr _ _ _) in *. exists c.
  assert (Hs : (2 <= e3_size c)%nat) by (apply Nat.le_refl).
  assert (Hf : finite_times c).
  { intros t k' Hi. rewrite Ec in Hi. destruct Hi as [[= <- _]|[[= <- _]|[]]]; reflexivity. }
  split; auto. split; auto. split; auto. intros show fuel Hfu.
  change (e3_write_eval show c 11 fuel) with
    (sample_loop show (sample_row (e3_evaluate c) (fun t => e3_evaluate_derivative c t 1)
       (fun p v => vec_numbers p ++ vec_numbers v)) (dbl 1) ((dbl 1 - dbl 0) / #10)%num fuel (dbl 0) export_header).
  set (row := sample_row _ _ _). set (dt := (_ / _)%num).
  set (f := fun i => match row (visited (dbl 0) dt i) with Ok (Some xs) => xs | _ => [] end).
  exists (map f (seq 0 11)). split; [reflexivity|].
  assert (Hi : forall i, (i < 11)%nat -> is_nan (visited (dbl 0) dt i) = false /\
      nltb (visited (dbl 0) dt i) (dbl 0) = false /\ nltb (dbl 1) (visited (dbl 0) dt i) = false /\
      nltb (visited (dbl 0) dt i) (dbl 1) = true).
  { intros i Hi. do 11 (destruct i as [|i]; [vm_compute; auto|]). lia. }
  apply loop_ends; [|vm_compute; reflexivity|lia].
  intros i Hk. destruct (Hi i Hk) as (N & L & U & M). split; [exact M|].
  destruct (b64_row c (visited (dbl 0) dt i) Hc Hs Hf N L U) as (p & v & Ep & Ev).
  pose proof (sample_row_ok (e3_evaluate c) (fun t => e3_evaluate_derivative c t 1)
    (fun p v => vec_numbers p ++ vec_numbers v) _ p v Ep Ev) as E.
  fold row in E. unfold f. now rewrite E.
Qed.

(** The header names fourteen columns; a row has as many as there are numbers, seven
    for the E3 curve and fourteen for the SE3 curve. *)
Definition columns (l : text) : nat := count_occ ascii_dec l " "%char.

Theorem C47_columns : forall (S : Type) (show : S -> text) xs, (forall x, ~ In " "%char (show x)) ->
  columns export_header = 14%nat /\ columns (line show xs) = length xs.
Proof.
  intros S show xs Hs. split; [reflexivity|]. unfold columns, line. rewrite count_occ_app. simpl.
  rewrite Nat.add_0_r. induction xs as [|x xs IH]; simpl; auto.
  rewrite !count_occ_app, IH. rewrite (proj1 (count_occ_not_In ascii_dec _ _) (Hs x)). reflexivity.
Qed.

(** The words of a line; each is followed by a space. *)
Fixpoint words_from (acc l : text) : list text :=
  match l with
  | [] => []
  | ch :: r => if Ascii.eqb ch " "%char then rev acc :: words_from [] r
               else if Ascii.eqb ch newline then [] else words_from (ch :: acc) r
  end.
Definition words (l : text) : list text := words_from [] l.

(** The names of the columns.  The SE3 rows follow them: time, position, rotation, linear
    and angular velocity.  In the E3 rows the velocity follows the position, so that it
    stands below the names of the rotation. *)
Theorem C47_header_names :
  words export_header = map String.list_ascii_of_string
    ["t"; "px"; "py"; "pz"; "rw"; "rx"; "ry"; "rz"; "vx"; "vy"; "vz"; "wx"; "wy"; "wz"]%string /\
  last export_header " "%char = newline.
Proof. split; reflexivity. Qed.

Lemma words_from_word w r : forall acc, ~ In " "%char w -> ~ In newline w ->
  words_from acc (w ++ " "%char :: r) = (rev acc ++ w) :: words_from [] r.
Proof.
  induction w as [|ch w IH]; intros acc Hs Hn; cbn [app words_from].
  - rewrite Ascii.eqb_refl, app_nil_r. reflexivity.
  - rewrite (proj2 (Ascii.eqb_neq ch " "%char)) by (intros ->; apply Hs; now left).
    rewrite (proj2 (Ascii.eqb_neq ch newline)) by (intros ->; apply Hn; now left).
    rewrite IH; [|intros X; apply Hs; now right|intros X; apply Hn; now right]. cbn [rev]. now rewrite <- app_assoc.
Qed.

Theorem C47_row_words : forall (S : Type) (show : S -> text) xs,
  (forall x, ~ In " "%char (show x)) -> (forall x, ~ In newline (show x)) ->
  words (line show xs) = map show xs.
Proof.
  intros S show xs Hs Hn. unfold words, line. induction xs as [|x xs IH]; [reflexivity|].
  cbn [map concat]. rewrite <- !app_assoc. cbn [app]. rewrite words_from_word by auto. cbn [rev app]. now rewrite IH.
Qed.

(** ** C58 *)

(** What saveCurveAtTimes stores for a time: the value there or, outside the range of the
    curve, whatever it stored before. *)
Lemma save_values K (c : se3_curve R) : se3_is_empty c = false -> consistent (h_mgr c) -> forall times st acc,
  exists ps r, foldM (fun st t =>
      let* e := se3_evaluate K c t in
      let val := match e with Some p => p | None => fst st end in
      Ok (val, snd st ++ [pose_numbers val])) times (st, acc) = Ok (r, acc ++ map pose_numbers ps) /\
    length ps = length times /\
    forall i t, nth_error times i = Some t ->
      (se3_min_time c <= t <= se3_max_time c -> exists p, se3_evaluate K c t = Ok (Some p) /\ nth_error ps i = Some p) /\
      (~ se3_min_time c <= t <= se3_max_time c -> nth_error ps i = nth_error (st :: ps) i).
Proof.
  intros He Hc times. induction times as [|t times IH]; intros st acc.
  - exists [], st. simpl. rewrite app_nil_r. split; auto. split; auto. intros [|i] t; discriminate.
  - destruct (C37_se3_domain K c t Hc He) as (A & B & _).
    assert (D : (se3_min_time c <= t <= se3_max_time c /\ exists p, se3_evaluate K c t = Ok (Some p)) \/
                (~ se3_min_time c <= t <= se3_max_time c /\ se3_evaluate K c t = Ok None)).
    { destruct (Rle_lt_dec (se3_min_time c) t); [destruct (Rle_lt_dec t (se3_max_time c))|].
      - left. split; [lra|]. apply A. lra.
      - right. split; [lra|]. apply B. lra.
      - right. split; [lra|]. apply B. lra. }
    cbn [foldM].
    destruct D as [[Hin [p Ep]]|[Hout Eo]].
    + rewrite Ep. cbn [bind fst snd]. destruct (IH p (acc ++ [pose_numbers p])) as (ps & r & E & L & P).
      exists (p :: ps), r. split; [etransitivity; [exact E|]; cbn [map]; now rewrite <- app_assoc|]. split; [simpl; auto|].
      intros [|i] t' Ht; [|exact (P i t' Ht)]. injection Ht as <-. split; [eauto|]. tauto.
    + rewrite Eo. cbn [bind fst snd]. destruct (IH st (acc ++ [pose_numbers st])) as (ps & r & E & L & P).
      exists (st :: ps), r. split; [etransitivity; [exact E|]; cbn [map]; now rewrite <- app_assoc|]. split; [simpl; auto|].
      intros [|i] t' Ht; [|exact (P i t' Ht)]. injection Ht as <-. split; [tauto|]. reflexivity.
Qed.

(** One row per requested time with the time and the seven numbers of a pose.  Outside the
    range the previous row's pose is repeated, at the beginning the identity. *)
Theorem C58_save_at_times : forall (show : R -> text) K (c : se3_curve R) times,
  consistent (h_mgr c) -> se3_is_empty c = false -> times <> [] ->
  exists ps, length ps = length times /\
    (forall i t, nth_error times i = Some t ->
      (se3_min_time c <= t <= se3_max_time c -> exists p, se3_evaluate K c t = Ok (Some p) /\ nth_error ps i = Some p) /\
      (~ se3_min_time c <= t <= se3_max_time c -> nth_error ps i = nth_error (Pose (V3 0 0 0) (Quat 1 0 0 0) :: ps) i)) /\
    se3_save_at_times show K c times =
      Ok (concat (map (fun tp => line_of (map show (fst tp :: pose_numbers (snd tp))) ++ [newline]) (combine times ps))).
Proof.
  intros show K c times Hc He Hne. destruct (save_values K c He Hc times identity_pose []) as (ps & r & E & L & P).
  exists ps. split; auto. split; [exact P|].
  unfold se3_save_at_times. cbn zeta in *. rewrite E. cbn [bind snd app].
  assert (Lv : length times = length (map pose_numbers ps)) by (now rewrite map_length).
  unfold write_time_vector_csv. rewrite <- Lv, Nat.eqb_refl. cbn [negb].
  destruct (Nat.ltb_spec (length times) 1) as [X|_]; [destruct times; simpl in X; [congruence|lia]|].
  assert (D : match map pose_numbers ps with [] => 0%nat | v :: _ => to_unsigned (length v) end = 7%nat).
  { destruct ps; [destruct times; [congruence|discriminate]|]. reflexivity. }
  rewrite D, time_rows; auto; [|intros v Hv; apply in_map_iff in Hv as (p & <- & _); reflexivity].
  cbn [bind]. assert (M : map (fun tv => map show (fst tv :: snd tv)) (combine times (map pose_numbers ps)) =
     map (fun tp => map show (fst tp :: pose_numbers (snd tp))) (combine times ps)).
  { clear. revert ps. induction times as [|t times IH]; intros [|p ps]; simpl; auto. f_equal. apply IH. }
  rewrite M, write_csv_ok.
  - now rewrite map_map.
  - destruct times; [congruence|]. destruct ps; discriminate.
  - apply Forall_forall. intros row Hr. apply in_map_iff in Hr as (tp & <- & _). discriminate.
  - apply Forall_forall. intros row Hr. apply in_map_iff in Hr as (tp & <- & _). reflexivity.
Qed.

Lemma save_empty_times (show : R -> text) K (c : se3_curve R) : se3_save_at_times show K c [] = Abort.
Proof. reflexivity. Qed.

(** Saving a curve: one row per coefficient with its time and pose; an empty curve aborts. *)
Theorem C58_save_curve : forall (show : R -> text) K (c : se3_curve R), consistent (h_mgr c) ->
  (se3_is_empty c = true -> se3_save_times_and_values show K c = Abort) /\
  (se3_is_empty c = false -> exact_kindr K -> unit_knots c ->
   exists ps, length ps = se3_size c /\
     (forall i t k, nth_error (contents (h_mgr c)) i = Some (t, k) ->
      exists p, nth_error ps i = Some p /\ p_pos p = p_pos (fst k) /\ same_rotation (p_rot p) (p_rot (fst k)) /\
        (t < se3_max_time c -> p_rot p = p_rot (fst k))) /\
     se3_save_times_and_values show K c =
       Ok (concat (map (fun tp => line_of (map show (fst tp :: pose_numbers (snd tp))) ++ [newline])
                       (combine (map fst (contents (h_mgr c))) ps)))).
Proof.
  intros show K c Hc. assert (Et : get_times (h_mgr c) = map fst (contents (h_mgr c))).
  { unfold get_times, contents. now rewrite map_map. }
  split.
  - intros He. unfold se3_save_times_and_values. unfold se3_is_empty in He.
    destruct (get_times (h_mgr c)); [reflexivity|discriminate].
  - intros He HK Hu. unfold se3_save_times_and_values. rewrite Et.
    destruct (C58_save_at_times show K c (map fst (contents (h_mgr c))) Hc He) as (ps & L & P & E).
    { intros X. unfold se3_is_empty in He. rewrite Et, X in He. discriminate. }
    exists ps. split; [rewrite L; unfold contents; rewrite !map_length; reflexivity|]. split; [|exact E].
    intros i t k Hi. destruct (C42_knot_orientations K c t k HK Hc Hu (nth_error_In _ _ Hi)) as (p & Ep & Q).
    exists p. split; [|exact Q].
    destruct (P i t) as [Pin _]; [now rewrite (map_nth_error fst _ _ Hi)|].
    destruct (C37_se3_domain K c t Hc He) as (A & _).
    destruct (Pin (proj1 A (ex_intro _ p Ep))) as (p' & Ep' & Hp'). congruence.
Qed.

(** Loading such a file returns the x coordinates as times (everything as changed by the
    formatting). *)
Theorem C58_load_saved : forall (show : R -> text) (atof : text -> R) K (c : se3_curve R) times file,
  plain_format show -> consistent (h_mgr c) -> se3_is_empty c = false -> times <> [] ->
  (forall t, In t times -> se3_min_time c <= t <= se3_max_time c) ->
  se3_save_at_times show K c times = Ok file ->
  exists ps, Forall2 (fun t p => se3_evaluate K c t = Ok (Some p)) times ps /\
    load_time_vector_csv atof file = 
      Ok (map (fun p => atof (show (vx (p_pos p)))) ps,
          map (fun p => map (fun x => atof (show x)) (pose_numbers p)) ps).
Proof.
  intros show atof K c times file Hx Hc He Hne Hin Hs.
  destruct (save_values K c He Hc times identity_pose []) as (ps & r & E & L & P).
  exists ps. split.
  - clear E Hs Hne. revert times L P Hin. induction ps as [|p ps IH]; intros [|t times] L P Hin; try discriminate; constructor.
    + destruct (P 0%nat t eq_refl) as [A _]. destruct A as (p' & Ep & [= <-]); [apply Hin; simpl; auto|]. exact Ep.
    + apply IH; [simpl in L; lia| |intros t' Ht; apply Hin; simpl; auto].
      intros i t' Ht. destruct (P (Datatypes.S i) t' Ht) as [A _]. split; [exact A|].
      intros X. exfalso. apply X, Hin. simpl. right. eapply nth_error_In. exact Ht.
  - unfold se3_save_at_times in Hs. cbn zeta in *. rewrite E in Hs. cbn [bind snd app] in Hs.
    destruct (C46_loaded_columns R show atof 7 times (map pose_numbers ps) 0 Hx Hne) as (f & Hw & Hl).
    + now rewrite map_length.
    + lia.
    + reflexivity.
    + intros v Hv. apply in_map_iff in Hv as (p & <- & _). reflexivity.
    + rewrite Hw in Hs. injection Hs as <-. rewrite Hl, !map_map. reflexivity.
Qed.

(** ** Examples *)

Example C47_real_example : exists c : e3_curve R,
  consistent c /\ e3_min_time c = 0 /\ e3_max_time c = 3 /\ e3_min_time c < e3_max_time c /\
  (2 <= 4 <= int_max)%Z /\ (int_min < -1 <= 0)%Z.
Proof.
  exists (Mgr [Node 0%nat 0 1%N (Knot (V3 0 0 0) (V3 1 0 0)); Node 1%nat 3 2%N (Knot (V3 0 0 0) (V3 1 0 0))]
              [(1%N, 0%nat); (2%N, 1%nat)] 2%nat).
  split; [split|].
  - unfold get_times. simpl. repeat constructor. unfold t_lt. simpl. apply Rltb_lt. lra.
  - simpl. repeat constructor; simpl; lia.
  - simpl. repeat constructor.
  - unfold get_keys. simpl. repeat constructor; simpl; intuition discriminate.
  - simpl. apply Permutation.Permutation_refl.
  - unfold e3_min_time, e3_max_time, min_time, max_time. simpl. unfold int_min, int_max.
    repeat split; try lra; lia.
Qed.

(** The sampling times for four samples from 0 to 3 are 0, 1 and 2. *)
Example C47_times_example : map (sample_time 0 3 4) (seq 0 3) = [0; 1; 2].
Proof. unfold sample_time. simpl. repeat f_equal; lra. Qed.

Example C47_no_range_example : (e3_size (e3_new : e3_curve R) <= 1)%nat /\ (int_min < 10 <= int_max)%Z.
Proof. split; [apply Nat.le_0_l|unfold int_min, int_max; lia]. Qed.

Example C47_se3_example : exists c : se3_curve R, consistent (h_mgr c) /\ se3_min_time c < se3_max_time c.
Proof. destruct C37_se3_example as (c & Hc & _ & _ & _ & _ & Ht & _). exists c. split; auto. lra. Qed.

(** Binary64: the hypotheses of the statements on one sample; see the refutations above
    for those of [C47_never_ends]. *)
Example C47_one_sample_example : exists c : e3_curve b64,
  consistent c /\ (2 <= e3_size c)%nat /\ finite_times c.
Proof. destruct C47_row_count_refuted as (c & Hc & Hs & Hf & _). eauto. Qed.

Example C47_columns_example : forall b : bool, ~ In " "%char [if b then "1"%char else "0"%char].
Proof. intros [] [X|[]]; discriminate. Qed.

(** C58: a curve and requested times, one of them outside its range; text without
    delimiters for every real number. *)
Example C58_example : exists c : se3_curve R, consistent (h_mgr c) /\ se3_is_empty c = false /\
  unit_knots c /\ exact_kindr std_kindr /\ [1/2; 100] <> [] /\ ~ se3_min_time c <= 100 <= se3_max_time c /\
  se3_min_time c <= 1/2 <= se3_max_time c /\ plain_format (fun _ : R => ["1"%char]).
Proof.
  destruct fit4 as (c & Hc & Hu & E0 & E1 & Hcon). exists c.
  destruct C37_se3_example as (_ & _ & _ & HK & _).
  split; [exact Hc|]. split; [unfold se3_is_empty; rewrite <- contents_times, Hcon; reflexivity|].
  split; [exact Hu|]. split; [exact HK|]. split; [discriminate|]. split; [lra|]. split; [lra|].
  split; intros _; [split; intros [X|[]]; discriminate|discriminate].
Qed.

Print Assumptions C47_e3_rows.
Print Assumptions C47_se3_rows.
Print Assumptions C47_never_ends.
Print Assumptions C47_row_count_refuted.
Print Assumptions C58_save_curve.
Print Assumptions C58_load_saved.
