(** * Rounding errors of quaternion products and of the rotational part of a segment *)

From Coquelicot Require Import Coquelicot.
From Coq Require Import List Bool Arith NArith ZArith Reals Lra Lia.
From Flocq Require Import Core IEEE754.BinarySingleNaN.
From Verif Require Import Base TimeOrder TimeB64 TimeInst Manager ManagerSpec Num NumB64 HermiteE3 HermiteB64 HermiteErr
  Quat QuatSpec QuatProofs QuatDist HermiteSE3 Props_Rounding.
Import ListNotations.
Local Open Scope R_scope.

Local Notation u := (bpow radix2 (-53)).

(** The real quaternion with the same components. *)
Definition real_quat (q : quat b64) : quat R := Quat (B2R (qw q)) (B2R (qx q)) (B2R (qy q)) (B2R (qz q)).
Definition finite_quat (q : quat b64) : Prop :=
  is_finite (qw q) = true /\ is_finite (qx q) = true /\ is_finite (qy q) = true /\ is_finite (qz q) = true.

(** Finite and at most [e] away. *)
Definition qnear (q : quat b64) (r : quat R) (e : R) : Prop := finite_quat q /\ qdist (real_quat q) r <= e.
Definition vnear (v : vec3 b64) (r : vec3 R) (e : R) : Prop := finite_vec v /\ vdist (real_vec v) r <= e.

Lemma u_small : 0 < u < / 9000000000000000.
Proof. rewrite u_value. lra. Qed.

(** ** Products *)

Section Product.
Variables (s r : R).
Hypothesis Ps : 0 < s.
Hypothesis Pr : 0 < r.
Hypothesis Hm : middling (s * r).

Definition fits (m : R) (x : b64) : Prop := is_finite x = true /\ Rabs (B2R x) <= m.

Lemma term x y : fits (11 / 10 * s) x -> fits (11 / 10 * r) y ->
  near (nmul x y) (B2R x * B2R y) (123 / 100) (s * r) /\ Rabs (B2R x * B2R y) <= 121 / 100 * (s * r).
Proof.
  intros [Fx Bx] [Fy By]. split.
  - eapply do_mul with (A := 11 / 10) (B := 11 / 10) (k := 0) (l := 0) (s := s) (r := r);
      try (apply near_val, finite_val; assumption); auto. repeat split; lra.
  - rewrite Rabs_mult. replace (121 / 100 * (s * r)) with ((11 / 10 * s) * (11 / 10 * r)) by field.
    apply Rmult_le_compat; auto using Rabs_pos.
Qed.

End Product.

(** A sum of four terms with signs. *)
Definition pm (b : bool) (x y : b64) : b64 := if b then nadd x y else nsub x y.
Definition rpm (b : bool) (x y : R) : R := if b then x + y else x - y.

Lemma pm_near b x y a c k l B s m : near x a k s -> near y c l s -> Rabs a + Rabs c <= B * s -> middling s ->
  (0 <= k /\ 0 <= l /\ k + l <= 10000 /\ 0 <= B <= 100 /\ k + l + B + / 100 <= m) -> near (pm b x y) (rpm b a c) m s.
Proof.
  intros Hx Hy Hb Hs Hm. destruct b; cbn [pm rpm].
  - eapply do_add; eauto. eapply Rle_trans; [apply Rabs_triang|exact Hb].
  - eapply do_sub; eauto. unfold Rminus. eapply Rle_trans; [apply Rabs_triang|]. now rewrite Rabs_Ropp.
Qed.

Lemma rpm_abs b x y : Rabs (rpm b x y) <= Rabs x + Rabs y.
Proof.
  destruct b; cbn [rpm]; [apply Rabs_triang|]. unfold Rminus. eapply Rle_trans; [apply Rabs_triang|]. rewrite Rabs_Ropp. lra.
Qed.

Lemma sum4_near b1 b2 b3 x1 x2 x3 x4 a1 a2 a3 a4 s : middling s ->
  near x1 a1 (123 / 100) s /\ Rabs a1 <= 121 / 100 * s -> near x2 a2 (123 / 100) s /\ Rabs a2 <= 121 / 100 * s ->
  near x3 a3 (123 / 100) s /\ Rabs a3 <= 121 / 100 * s -> near x4 a4 (123 / 100) s /\ Rabs a4 <= 121 / 100 * s ->
  near (pm b3 (pm b2 (pm b1 x1 x2) x3) x4) (rpm b3 (rpm b2 (rpm b1 a1 a2) a3) a4) 16 s.
Proof.
  intros Hs [N1 B1] [N2 B2] [N3 B3] [N4 B4]. pose proof (rpm_abs b1 a1 a2) as R1.
  pose proof (rpm_abs b2 (rpm b1 a1 a2) a3) as R2.
  eapply pm_near with (k := 976 / 100) (l := 123 / 100) (B := 484 / 100); [|exact N4|lra|exact Hs|repeat split; lra].
  eapply pm_near with (k := 489 / 100) (l := 123 / 100) (B := 363 / 100); [|exact N3|lra|exact Hs|repeat split; lra].
  eapply pm_near with (k := 123 / 100) (l := 123 / 100) (B := 242 / 100); [exact N1|exact N2|lra|exact Hs|repeat split; lra].
Qed.

Lemma qmul_error (a b : quat b64) s r : finite_quat a -> finite_quat b ->
  qnorm (real_quat a) <= 11 / 10 * s -> qnorm (real_quat b) <= 11 / 10 * r -> 0 < s -> 0 < r -> middling (s * r) ->
  qnear (qmul a b) (qmul (real_quat a) (real_quat b)) (32 * u * (s * r)).
Proof.
  intros (A1 & A2 & A3 & A4) (B1 & B2 & B3 & B4) Na Nb Ps Pr Hm.
  destruct (qcomponents (real_quat a)) as (C1 & C2 & C3 & C4). destruct (qcomponents (real_quat b)) as (D1 & D2 & D3 & D4).
  cbn [real_quat qw qx qy qz] in C1, C2, C3, C4, D1, D2, D3, D4.
  assert (Fa : fits (11 / 10 * s) (qw a) /\ fits (11 / 10 * s) (qx a) /\ fits (11 / 10 * s) (qy a) /\ fits (11 / 10 * s) (qz a))
    by (repeat split; auto; lra).
  assert (Fb : fits (11 / 10 * r) (qw b) /\ fits (11 / 10 * r) (qx b) /\ fits (11 / 10 * r) (qy b) /\ fits (11 / 10 * r) (qz b))
    by (repeat split; auto; lra).
  destruct Fa as (FA1 & FA2 & FA3 & FA4), Fb as (FB1 & FB2 & FB3 & FB4). pose proof (term s r Ps Pr Hm) as T.
  pose proof (sum4_near false false false _ _ _ _ _ _ _ _ _ Hm (T _ _ FA1 FB1) (T _ _ FA2 FB2) (T _ _ FA3 FB3) (T _ _ FA4 FB4)) as [W1 W2].
  pose proof (sum4_near true true false _ _ _ _ _ _ _ _ _ Hm (T _ _ FA1 FB2) (T _ _ FA2 FB1) (T _ _ FA3 FB4) (T _ _ FA4 FB3)) as [X1 X2].
  pose proof (sum4_near false true true _ _ _ _ _ _ _ _ _ Hm (T _ _ FA1 FB3) (T _ _ FA2 FB4) (T _ _ FA3 FB1) (T _ _ FA4 FB2)) as [Y1 Y2].
  pose proof (sum4_near true false true _ _ _ _ _ _ _ _ _ Hm (T _ _ FA1 FB4) (T _ _ FA2 FB3) (T _ _ FA3 FB2) (T _ _ FA4 FB1)) as [Z1 Z2].
  cbn [pm rpm] in *. pose proof (middling_pos _ Hm) as Pm. pose proof u_small as U. split; [repeat split; assumption|].
  replace (32 * u * (s * r)) with (2 * (16 * u * (s * r))) by ring.
  apply qdist_components; [apply Rmult_le_pos; lra|exact W2|exact X2|exact Y2|exact Z2].
Qed.

Lemma qnear_norm q r e : qnear q r e -> qnorm (real_quat q) <= qnorm r + e.
Proof. intros [_ H]. pose proof (qnorm_qdist (real_quat q) r). lra. Qed.

Lemma qnear_weaken q r e e' : qnear q r e -> e <= e' -> qnear q r e'.
Proof. intros [F H] L. split; [exact F|lra]. Qed.

Lemma vnear_weaken q r e e' : vnear q r e -> e <= e' -> vnear q r e'.
Proof. intros [F H] L. split; [exact F|lra]. Qed.

Lemma qnear_self q : finite_quat q -> qnear q (real_quat q) 0.
Proof. intros F. split; [exact F|]. rewrite qdist_self. lra. Qed.

(** The product of two approximate quaternions. *)
Lemma qnear_mul a b A B e f s r : qnear a A e -> qnear b B f -> qnorm A <= s -> qnorm B <= r ->
  e <= s / 10 -> f <= r / 10 -> 0 < s -> 0 < r -> middling (s * r) ->
  qnear (qmul a b) (qmul A B) (e * (r + f) + s * f + 32 * u * (s * r)).
Proof.
  intros Ha Hb NA NB He Hf Ps Pr Hm. pose proof (qnear_norm _ _ _ Ha) as Na. pose proof (qnear_norm _ _ _ Hb) as Nb.
  destruct Ha as [Fa Da], Hb as [Fb Db].
  destruct (qmul_error a b s r Fa Fb) as [F E]; auto; try lra. split; [exact F|].
  eapply Rle_trans; [apply (qdist_triangle _ (qmul (real_quat a) (real_quat b)))|]. pose proof (qdist_mul (real_quat a) A (real_quat b) B) as Q.
  assert (X : qdist (real_quat a) A * qnorm (real_quat b) <= e * (r + f)).
  { apply Rmult_le_compat; auto using qdist_pos, qnorm_pos. lra. }
  assert (Y : qnorm A * qdist (real_quat b) B <= s * f).
  { apply Rmult_le_compat; auto using qdist_pos, qnorm_pos. }
  lra.
Qed.

(** Both of length one. *)
Lemma qnear_unit_mul a b A B e f m : qnear a A e -> qnear b B f -> qnorm A = 1 -> qnorm B = 1 ->
  e <= 1 / 10 -> f <= 1 / 10 -> e * (1 + f) + f + 32 * u <= m -> qnear (qmul a b) (qmul A B) m /\ qnorm (qmul A B) = 1.
Proof.
  intros Ha Hb NA NB He Hf Hm. split; [|rewrite qnorm_mul, NA, NB; ring]. eapply qnear_weaken.
  - eapply (qnear_mul a b A B e f 1 1); eauto; try lra. rewrite Rmult_1_l. apply middling_one.
  - lra.
Qed.

Lemma qnear_conj q r e : qnear q r e -> qnear (qconj q) (qconj r) e.
Proof.
  intros [(F1 & F2 & F3 & F4) H]. destruct (val_opp _ _ (finite_val _ F2)) as [X1 X2].
  destruct (val_opp _ _ (finite_val _ F3)) as [Y1 Y2]. destruct (val_opp _ _ (finite_val _ F4)) as [Z1 Z2].
  split; [repeat split; assumption|]. rewrite <- qdist_conj in H. unfold real_quat, qconj in *. cbn [qw qx qy qz] in *.
  rewrite X2, Y2, Z2. exact H.
Qed.

Lemma vnear_neg q r e : vnear q r e -> vnear (vneg q) (vneg r) e.
Proof.
  intros [(F2 & F3 & F4) H]. destruct (val_opp _ _ (finite_val _ F2)) as [X1 X2].
  destruct (val_opp _ _ (finite_val _ F3)) as [Y1 Y2]. destruct (val_opp _ _ (finite_val _ F4)) as [Z1 Z2].
  split; [repeat split; assumption|]. rewrite <- vdist_neg in H. unfold real_vec, vneg in *. cbn [vx vy vz] in *.
  rewrite X2, Y2, Z2. exact H.
Qed.

Lemma vnear_pure v r e : vnear v r e -> qnear (qpure v) (qpure r) e.
Proof.
  intros [(F2 & F3 & F4) H]. destruct (val_int 0 ltac:(vm_compute; discriminate)) as [Z1 Z2].
  split; [repeat split; assumption|]. rewrite vdist_pure in H. unfold real_quat, real_vec, qpure in *.
  cbn [qw qx qy qz vx vy vz] in *. rewrite Z2. exact H.
Qed.

Lemma qnear_imag q r e : qnear q r e -> vnear (qimag q) (qimag r) e.
Proof.
  intros [(F1 & F2 & F3 & F4) H]. split; [repeat split; assumption|].
  eapply Rle_trans; [|exact H]. apply (vdist_imag (real_quat q) r).
Qed.

(** ** Scaled rotation vectors *)

Lemma vnear_norm q r e : vnear q r e -> vnorm (real_vec q) <= vnorm r + e.
Proof. intros [_ H]. pose proof (vnorm_vdist (real_vec q) r). lra. Qed.

(** A factor between 0 and 1 with an error of 60 units. *)
Lemma vnear_scale (x : b64) (X : R) v V e w : near x X 60 1 -> 0 <= X <= 1 -> vnear v V e -> vnorm V + e <= 11 / 10 * w ->
  0 < w -> middling w -> vnear (vscale x v) (vscale X V) (e + 70 * u * w).
Proof.
  intros [Fx Ex] HX Hv Hn Pw Hm. pose proof (vnear_norm _ _ _ Hv) as Nv. destruct Hv as [(F1 & F2 & F3) Dv].
  pose proof u_small as U. destruct (vcomponents (real_vec v)) as (C1 & C2 & C3). cbn [real_vec vx vy vz] in C1, C2, C3.
  assert (Bx : Rabs (B2R x) <= 11 / 10 * 1).
  { replace (B2R x) with ((B2R x - X) + X) by ring. eapply Rle_trans; [apply Rabs_triang|]. rewrite (Rabs_pos_eq X) by lra. lra. }
  assert (Hm1 : middling (1 * w)) by (now rewrite Rmult_1_l).
  assert (T : forall y, is_finite y = true -> Rabs (B2R y) <= vnorm (real_vec v) ->
    is_finite (nmul x y) = true /\ Rabs (B2R (nmul x y) - B2R x * B2R y) <= 123 / 100 * u * w).
  { intros y Fy By. destruct (term 1 w ltac:(lra) Pw Hm1 x y) as [[T1 T2] _]; [split; auto|split; [auto|lra]|].
    rewrite Rmult_1_l in T2. now split. }
  destruct (T _ F1 C1) as [T1 E1], (T _ F2 C2) as [T2 E2], (T _ F3 C3) as [T3 E3].
  split; [repeat split; assumption|].
  eapply Rle_trans; [apply (vdist_triangle _ (vscale (B2R x) (real_vec v)))|].
  assert (D1 : vdist (real_vec (vscale x v)) (vscale (B2R x) (real_vec v)) <= 2 * (123 / 100 * u * w)).
  { apply vdist_components; [apply Rmult_le_pos; lra|exact E1|exact E2|exact E3]. }
  pose proof (vdist_scale (B2R x) (real_vec v) X V) as D2. rewrite (Rabs_pos_eq X) in D2 by lra.
  assert (D3 : Rabs (B2R x - X) * vnorm (real_vec v) <= 60 * u * 1 * (11 / 10 * w)).
  { apply Rmult_le_compat; auto using Rabs_pos, vnorm_pos. lra. }
  assert (D4 : X * vdist (real_vec v) V <= 1 * e) by (apply Rmult_le_compat; auto using vdist_pos; lra).
  assert (0 <= u * w) by (apply Rmult_le_pos; lra). lra.
Qed.

(** ** The weights of the three rotation vectors *)

Section Weights.
Variables (alpha : b64) (x : R).
Hypothesis Hal : near alpha x (33 / 10) 1.
Hypothesis Hx : 0 <= x <= 1.

Lemma weight1_range : 0 <= x * x * x - 3 * (x * x) + 3 * x <= 1.
Proof.
  replace (x * x * x - 3 * (x * x) + 3 * x) with (1 - (1 - x) * (1 - x) * (1 - x)) by ring.
  assert (0 <= (1 - x) * (1 - x) <= 1) by (split; nra). split; nra.
Qed.
Lemma weight2_range : 0 <= - (2) * (x * x * x) + 3 * (x * x) <= 1.
Proof. pose proof (beta0_range x Hx). lra. Qed.
Lemma weight3_range : 0 <= x * x * x <= 1.
Proof. pose proof (x2_range x Hx). pose proof (x3_range x Hx). lra. Qed.

Lemma near_weight1 : near (nadd (nsub (nmul (nmul alpha alpha) alpha) (nmul (nofZ 3) (nmul alpha alpha))) (nmul (nofZ 3) alpha))
  (x * x * x - 3 * (x * x) + 3 * x) 60 1.
Proof.
  pose proof (x2_range x Hx). pose proof (x3_range x Hx). pose proof weight1_range.
  eapply do_add with (B := 1) (k := 414 / 10) (l := 13); [| | |exact middling_one|fit].
  - eapply do_sub with (B := 3) (k := 121 / 10) (l := 262 / 10); [eapply near_x3; eauto| | |exact middling_one|fit].
    + eapply (near_times 3); [eapply near_x2; eauto|lra|lia|lra|lra].
    + apply abs_between. lra.
  - eapply (near_times 3); [exact Hal|lra|lia|lra|lra].
  - apply abs_between; lra.
Qed.
Lemma near_weight2 : near (nadd (nmul (nopp (nofZ 2)) (nmul (nmul alpha alpha) alpha)) (nmul (nofZ 3) (nmul alpha alpha)))
  (- (2) * (x * x * x) + 3 * (x * x)) 60 1.
Proof. eapply near_weaken; [lra|eapply near_beta1; eauto|lra]. Qed.
Lemma near_weight3 : near (nmul (nmul alpha alpha) alpha) (x * x * x) 60 1.
Proof. eapply near_weaken; [lra|eapply near_x3; eauto|lra]. Qed.
End Weights.

(** ** One segment *)

Lemma middling_between s : / 1024 <= s <= 1024 -> middling s.
Proof.
  intros Hs. split.
  - apply Rle_trans with (bpow radix2 (-10)); [apply bpow_le; lia|simpl; lra].
  - apply Rle_trans with (bpow radix2 10); [simpl; lra|apply bpow_le; lia].
Qed.

Section Vectors.
Variables (ta tb : b64).
Hypothesis Fa : is_finite ta = true.
Hypothesis Fb : is_finite tb = true.
Let D := B2R tb - B2R ta.
Hypothesis HD : moderate D.

Lemma middling_third : middling (D / 3).
Proof.
  pose proof (moderate_pos _ HD) as P. destruct HD as [L U]. split.
  - apply Rle_trans with (bpow radix2 (-200) / 4).
    + assert (E : bpow radix2 (-2) = / 4) by (simpl; lra). unfold Rdiv. rewrite <- E, <- bpow_plus. apply bpow_le. lia.
    + pose proof (bpow_gt_0 radix2 (-200)). lra.
  - apply Rle_trans with (bpow radix2 200); [lra|apply bpow_le; lia].
Qed.

Lemma length_near : near (nsub tb ta) D (11 / 10) D.
Proof. apply near_length; [now apply finite_val|now apply finite_val|now apply moderate_middling]. Qed.

(** [dt / 3.0] *)
Lemma third_near : near (ndiv (nsub tb ta) (nofZ 3)) (D / 3) 4 (D / 3).
Proof.
  pose proof (moderate_pos _ HD) as P.
  pose proof middling_third as M3.
  eapply near_weaken; [lra| |].
  - apply (near_div _ _ D (11 / 10) 0 1 D 3); auto; try lra.
    + exact length_near.
    + nint 3%Z.
    + rewrite Rabs_pos_eq; lra.
  - lra.
Qed.

(** [one_third * dt] *)
Lemma other_third_near : near (nmul (ndiv (nofZ 1) (nofZ 3)) (nsub tb ta)) (1 / 3 * D) 4 (D / 3).
Proof.
  pose proof (moderate_pos _ HD) as P.
  assert (N : near (ndiv (nofZ 1) (nofZ 3)) (1 / 3) (102 / 100) (1 / 3)).
  { eapply near_weaken; [lra| |].
    - apply (near_div _ _ 1 0 0 1 1 3); try lra.
      + apply middling_between. lra.
      + nint 1%Z.
      + nint 3%Z.
      + rewrite Rabs_pos_eq; lra.
    - lra. }
  eapply do_mul with (A := 1) (B := 1) (s := 1 / 3) (r := D); [exact N|exact length_near| | | |lra|exact P|field|repeat split; lra].
  - rewrite Rabs_pos_eq; lra.
  - rewrite Rabs_pos_eq; lra.
  - exact middling_third.
Qed.

Section Third.
Variable third : b64.
Hypothesis Hth : near third (D / 3) 4 (D / 3).

(** [third * ang] *)
Lemma turn_near (w : vec3 b64) : finite_vec w -> vnorm (real_vec w) * D <= 16 ->
  vnear (vscale third w) (vscale (D / 3) (real_vec w)) (56 * u) /\ vnorm (vscale (D / 3) (real_vec w)) <= 16 / 3.
Proof.
  intros (F1 & F2 & F3) Hw. pose proof (moderate_pos _ HD) as P. pose proof u_small as U.
  destruct (vcomponents (real_vec w)) as (C1 & C2 & C3). cbn [real_vec vx vy vz] in C1, C2, C3.
  assert (N : vnorm (real_vec w) <= 16 / D). { apply Rmult_le_reg_r with D; [exact P|]. field_simplify; lra. }
  assert (P3 : 0 < D / 3) by lra. assert (P4 : 0 < 16 / D) by (apply Rdiv_lt_0_compat; lra).
  assert (T : forall y, is_finite y = true -> Rabs (B2R y) <= vnorm (real_vec w) ->
    is_finite (nmul third y) = true /\ Rabs (B2R (nmul third y) - D / 3 * B2R y) <= 28 * u).
  { intros y Fy By. assert (X : near (nmul third y) (D / 3 * B2R y) (51 / 10) (16 / 3)).
    { eapply do_mul with (A := 1) (B := 1) (s := D / 3) (r := 16 / D); [exact Hth|apply near_val, finite_val, Fy| | | |exact P3|exact P4|field; lra|repeat split; lra].
      - rewrite Rabs_pos_eq; lra.
      - lra.
      - apply middling_between. lra. }
    destruct X as [X1 X2]. split; [exact X1|]. lra. }
  split.
  - destruct (T _ F1 C1) as [T1 E1], (T _ F2 C2) as [T2 E2], (T _ F3 C3) as [T3 E3]. split; [repeat split; assumption|].
    replace (56 * u) with (2 * (28 * u)) by ring. apply vdist_components; [lra|exact E1|exact E2|exact E3].
  - rewrite vnorm_scale, Rabs_pos_eq by lra. lra.
Qed.

(** [w1] and [w3] *)
Lemma w_near (k : pose b64 * twist b64) (Q : quat R) e s :
  finite_vec (t_ang (snd k)) -> vnorm (real_vec (t_ang (snd k))) * D <= 16 ->
  qnear (p_rot (fst k)) Q e -> 0 <= e <= / 1000 -> qnorm Q <= s -> 1 <= s <= 65 / 64 ->
  let W := qunrotate Q (vscale (D / 3) (real_vec (t_ang (snd k)))) in
  vnear (se3_w1 third k) W (125 / 10 * e + 440 * u) /\ vnorm W <= 6.
Proof.
  intros Fw Hw HQ He Hn Hs W. destruct (turn_near _ Fw Hw) as [T1 T2]. pose proof u_small as U.
  set (v := vscale (D / 3) (real_vec (t_ang (snd k)))) in *.
  pose proof (qnorm_pos Q) as PQ. assert (N1 : qnorm (qpure v) <= 16 / 3) by (now rewrite qnorm_pure).
  assert (N2 : qnorm (qconj Q) <= s) by (now rewrite qnorm_conj).
  pose proof (qnear_mul _ _ _ _ _ _ s (16 / 3) (qnear_conj _ _ _ HQ) (vnear_pure _ _ _ T1) N2 N1) as M1.
  assert (M1' : qnear (qmul (qconj (p_rot (fst k))) (qpure (vscale third (t_ang (snd k))))) (qmul (qconj Q) (qpure v)) (6 * e + 231 * u)).
  { eapply qnear_weaken; [apply M1; try lra; apply middling_between; lra|]. clear M1. nra. }
  assert (N3 : qnorm (qmul (qconj Q) (qpure v)) <= 16 / 3 * s).
  { rewrite qnorm_mul, Rmult_comm. apply Rmult_le_compat; auto using qnorm_pos. }
  pose proof (qnear_mul _ _ _ _ _ _ (16 / 3 * s) s M1' HQ N3 Hn) as M2.
  assert (M2' : vnear (se3_w1 third k) W (125 / 10 * e + 440 * u)).
  { apply qnear_imag. eapply qnear_weaken; [apply M2; try lra|].
    - apply middling_between. clear M1 M2. assert (1 <= s * s <= 104 / 100) by (split; nra). lra.
    - clear M1 M2. assert (s * s <= 104 / 100) by nra. assert (0 <= e * e <= e * / 1000) by (split; nra).
      assert (e * s <= 65 / 64 * e) by nra. assert (u * s <= 65 / 64 * u) by nra.
      assert (u * e <= u * / 1000) by (apply Rmult_le_compat_l; lra). assert (u * (s * s) <= 104 / 100 * u) by nra. nra. }
  split; [exact M2'|]. unfold W, qunrotate. eapply Rle_trans; [apply vnorm_imag|]. rewrite qnorm_mul.
  apply Rle_trans with (16 / 3 * s * s); [apply Rmult_le_compat; auto using qnorm_pos|nra].
Qed.
End Third.
End Vectors.
