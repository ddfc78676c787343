(** * Rounding errors of the cubic Hermite E3 curve in binary64 *)

From Coq Require Import List Bool Arith NArith ZArith Reals Lra Lia.
From Flocq Require Import Core IEEE754.BinarySingleNaN Relative.
From Verif Require Import Base TimeOrder TimeB64 TimeInst Manager ManagerSpec Num NumB64 HermiteE3 HermiteB64.
Import ListNotations.
Local Open Scope R_scope.

Local Notation rnd := (round radix2 (SpecFloat.fexp 53 1024) ZnearestE).
Local Notation u := (bpow radix2 (-53)).

Lemma u_value : u = / 9007199254740992.
Proof. simpl. lra. Qed.

(** One rounding. *)
Lemma rnd_error x : Rabs (rnd x - x) <= Rabs x * u + bpow radix2 (-1075).
Proof.
  destruct (error_N_FLT radix2 (-1074) 53 ltac:(lia) (fun z => negb (Z.even z)) x) as (e & h & He & Hh & _ & E).
  change (SpecFloat.fexp 53 1024) with (FLT_exp (-1074) 53). rewrite E.
  replace (x * (1 + e) + h - x) with (x * e + h) by ring.
  eapply Rle_trans; [apply Rabs_triang|]. apply Rplus_le_compat.
  - rewrite Rabs_mult. apply Rmult_le_compat_l; [apply Rabs_pos|]. eapply Rle_trans; [exact He|].
    unfold u_ro. change (-53 + 1)%Z with (-52)%Z. simpl. lra.
  - eapply Rle_trans; [exact Hh|]. change (-1074)%Z with (-1075 + 1)%Z. rewrite bpow_plus. simpl (bpow radix2 1). lra.
Qed.

(** [x] is finite and within [k] units (of 2^-53, on the scale [s]) of [a]. *)
Definition near (x : b64) (a k s : R) : Prop := is_finite x = true /\ Rabs (B2R x - a) <= k * u * s.

(** Scales on which neither overflow nor underflow matters. *)
Definition middling (s : R) : Prop := bpow radix2 (-900) <= s <= bpow radix2 900.

Lemma middling_pos s : middling s -> 0 < s.
Proof. intros [A _]. eapply Rlt_le_trans; [apply bpow_gt_0|exact A]. Qed.

Lemma middling_tiny s : middling s -> bpow radix2 (-1075) <= / 1000 * u * s.
Proof.
  intros [A _]. apply Rle_trans with (/ 1000 * u * bpow radix2 (-900)).
  - rewrite Rmult_assoc, <- bpow_plus. apply Rle_trans with (bpow radix2 (-10) * bpow radix2 (-53 + -900)).
    + rewrite <- bpow_plus. apply bpow_le. lia.
    + apply Rmult_le_compat_r; [apply bpow_ge_0|]. simpl. lra.
  - apply Rmult_le_compat_l; [|exact A]. apply Rmult_le_pos; [lra|apply bpow_ge_0].
Qed.

Lemma middling_one : middling 1.
Proof. split; [change 1 with (bpow radix2 0)|change 1 with (bpow radix2 0)]; apply bpow_le; lia. Qed.

(** One operation whose exact result is [v]. *)
Lemma near_rnd v a k B s : middling s -> Rabs (v - a) <= k * u * s -> Rabs a <= B * s -> 0 <= k <= 10000 -> 0 <= B <= 100 ->
  Rabs (rnd v) < bpow radix2 1024 /\ Rabs (rnd v - a) <= (k + B + / 100) * u * s.
Proof.
  intros Hs Hv Ha Hk HB. pose proof (middling_pos s Hs) as Ps. pose proof (middling_tiny s Hs) as Ts.
  pose proof (rnd_error v) as Er. rewrite u_value in *.
  assert (V : Rabs v <= (B + / 900000) * s).
  { replace v with ((v - a) + a) by ring. eapply Rle_trans; [apply Rabs_triang|].
    apply Rle_trans with (10000 * / 9007199254740992 * s + B * s); [|nra].
    apply Rplus_le_compat; [|exact Ha]. eapply Rle_trans; [exact Hv|]. nra. }
  assert (E : Rabs (rnd v - v) <= (B + / 100) * / 9007199254740992 * s).
  { eapply Rle_trans; [exact Er|]. apply Rle_trans with ((B + / 900000) * s * / 9007199254740992 + / 1000 * / 9007199254740992 * s); nra. }
  split.
  - replace (rnd v) with ((rnd v - v) + v) by ring. eapply Rle_lt_trans; [apply Rabs_triang|].
    apply Rle_lt_trans with (1024 * s); [nra|]. apply Rle_lt_trans with (bpow radix2 10 * bpow radix2 900).
    + destruct Hs as [_ Hs]. simpl (bpow radix2 10). nra.
    + rewrite <- bpow_plus. apply bpow_lt. lia.
  - replace (rnd v - a) with ((rnd v - v) + (v - a)) by ring. eapply Rle_trans; [apply Rabs_triang|]. nra.
Qed.

Lemma near_weaken x a k k' s : 0 <= s -> near x a k s -> k <= k' -> near x a k' s.
Proof.
  intros Hs [F H] Hk. split; [exact F|]. eapply Rle_trans; [exact H|].
  apply Rmult_le_compat_r; [exact Hs|]. apply Rmult_le_compat_r; [apply bpow_ge_0|exact Hk].
Qed.

Lemma near_val x a s : val x a -> near x a 0 s.
Proof. intros [F <-]. split; [exact F|]. rewrite Rminus_diag_eq, Rabs_R0 by reflexivity. lra. Qed.

Lemma near_add x y a b k l B s : middling s -> near x a k s -> near y b l s -> Rabs (a + b) <= B * s ->
  0 <= k -> 0 <= l -> k + l <= 10000 -> 0 <= B <= 100 -> near (nadd x y) (a + b) (k + l + B + / 100) s.
Proof.
  intros Hs [Fx Hx] [Fy Hy] Hab Hk Hl Hkl HB.
  destruct (near_rnd (B2R x + B2R y) (a + b) (k + l) B s Hs) as [N1 N2]; auto; try lra.
  - replace (B2R x + B2R y - (a + b)) with ((B2R x - a) + (B2R y - b)) by ring.
    eapply Rle_trans; [apply Rabs_triang|]. lra.
  - destruct (val_add_rnd x y _ _ (finite_val _ Fx) (finite_val _ Fy) N1) as [F E]. split; [exact F|]. now rewrite E.
Qed.

Lemma near_sub x y a b k l B s : middling s -> near x a k s -> near y b l s -> Rabs (a - b) <= B * s ->
  0 <= k -> 0 <= l -> k + l <= 10000 -> 0 <= B <= 100 -> near (nsub x y) (a - b) (k + l + B + / 100) s.
Proof.
  intros Hs [Fx Hx] [Fy Hy] Hab Hk Hl Hkl HB.
  destruct (near_rnd (B2R x - B2R y) (a - b) (k + l) B s Hs) as [N1 N2]; auto; try lra.
  - replace (B2R x - B2R y - (a - b)) with ((B2R x - a) + - (B2R y - b)) by ring.
    eapply Rle_trans; [apply Rabs_triang|]. rewrite Rabs_Ropp. lra.
  - destruct (val_sub_rnd x y _ _ (finite_val _ Fx) (finite_val _ Fy) N1) as [F E]. split; [exact F|]. now rewrite E.
Qed.

Lemma near_opp x a k s : near x a k s -> near (nopp x) (- a) k s.
Proof.
  intros [F H]. destruct (val_opp x _ (finite_val _ F)) as [F' E]. split; [exact F'|]. rewrite E.
  replace (- B2R x - - a) with (- (B2R x - a)) by ring. now rewrite Rabs_Ropp.
Qed.

Lemma near_mul x y a b k l A B s r : middling (s * r) -> 0 < s -> 0 < r -> near x a k s -> near y b l r ->
  Rabs a <= A * s -> Rabs b <= B * r -> 0 <= A <= 10 -> 0 <= B <= 10 -> 0 <= k <= 400 -> 0 <= l <= 500 ->
  near (nmul x y) (a * b) (A * l + B * k + A * B + / 50) (s * r).
Proof.
  intros Hsr Ps Pr [Fx Hx] [Fy Hy] Ha Hb HA HB Hk Hl. pose proof (middling_pos _ Hsr) as P.
  assert (M1 : forall p q c d, 0 <= p -> 0 <= q -> p <= c * s -> q <= d * r -> p * q <= c * d * (s * r)).
  { intros p q c d Hp Hq Hpc Hqd. replace (c * d * (s * r)) with ((c * s) * (d * r)) by ring. now apply Rmult_le_compat. }
  assert (K1 : 0 <= A * l <= 5000) by (split; nra). assert (K2 : 0 <= B * k <= 5000 - 1) by (split; nra).
  assert (K3 : 0 <= A * B <= 100) by (split; nra).
  destruct (near_rnd (B2R x * B2R y) (a * b) (A * l + B * k + / 100) (A * B) (s * r) Hsr) as [N1 N2]; [| |lra|lra|].
  - replace (B2R x * B2R y - a * b) with (a * (B2R y - b) + b * (B2R x - a) + (B2R x - a) * (B2R y - b)) by ring.
    eapply Rle_trans; [apply Rabs_triang|]. eapply Rle_trans; [apply Rplus_le_compat_r, Rabs_triang|]. rewrite !Rabs_mult.
    pose proof (M1 _ _ _ _ (Rabs_pos _) (Rabs_pos _) Ha Hy) as Q1.
    pose proof (M1 _ _ _ _ (Rabs_pos _) (Rabs_pos _) Hx Hb) as Q2.
    pose proof (M1 _ _ _ _ (Rabs_pos _) (Rabs_pos _) Hx Hy) as Q3.
    rewrite (Rmult_comm (Rabs b)).
    assert (Q4 : k * u * (l * u) <= / 100 * u).
    { rewrite u_value. apply Rle_trans with (500 * / 9007199254740992 * (500 * / 9007199254740992)); [|lra].
      apply Rmult_le_compat; nra. }
    assert (Q5 : k * u * (l * u) * (s * r) <= / 100 * u * (s * r)) by (apply Rmult_le_compat_r; lra).
    lra.
  - rewrite Rabs_mult. apply M1; auto using Rabs_pos.
  - destruct (val_mul_rnd x y _ _ (finite_val _ Fx) (finite_val _ Fy) N1) as [F E]. split; [exact F|]. rewrite E.
    eapply Rle_trans; [exact N2|]. lra.
Qed.

Lemma near_div x y a k l A s r : middling (s / r) -> 0 < s -> 0 < r -> near x a k s -> near y r l r ->
  Rabs a <= A * s -> 0 <= A <= 10 -> 0 <= k <= 10 -> 0 <= l <= 10 ->
  near (ndiv x y) (a / r) ((k + A * l) * (1 + / 1000) + A + / 100) (s / r).
Proof.
  intros Hsr Ps Pr [Fx Hx] [Fy Hy] Ha HA Hk Hl.
  assert (U : 0 < u < / 1000000) by (rewrite u_value; lra).
  assert (Y : B2R y >= r * (1 - 10 * u)).
  { assert (- (l * u * r) <= B2R y - r).
    { pose proof (Rle_abs (- (B2R y - r))) as Q. rewrite Rabs_Ropp in Q. lra. }
    assert (l * u * r <= 10 * u * r) by (apply Rmult_le_compat_r; [lra|]; apply Rmult_le_compat_r; lra). lra. }
  assert (Y0 : 0 < B2R y). { eapply Rlt_le_trans; [|apply Rge_le, Y]. apply Rmult_lt_0_compat; lra. }
  assert (I : / B2R y <= (1 + / 1000) * / r).
  { apply Rmult_le_reg_r with (B2R y); [exact Y0|]. rewrite Rinv_l by lra.
    apply Rle_trans with ((1 + / 1000) * / r * (r * (1 - 10 * u))).
    - replace ((1 + / 1000) * / r * (r * (1 - 10 * u))) with ((1 + / 1000) * (1 - 10 * u)) by (field; lra). nra.
    - apply Rmult_le_compat_l; [|lra]. apply Rmult_le_pos; [lra|]. left. now apply Rinv_0_lt_compat. }
  assert (K : 0 <= A * l <= 100) by (split; nra).
  destruct (near_rnd (B2R x / B2R y) (a / r) ((k + A * l) * (1 + / 1000)) A (s / r) Hsr) as [N1 N2]; [| |nra|lra|].
  - replace (B2R x / B2R y - a / r) with (((B2R x - a) + a / r * (r - B2R y)) * / B2R y) by (field; split; lra).
    rewrite Rabs_mult, (Rabs_pos_eq (/ B2R y)) by (left; now apply Rinv_0_lt_compat).
    apply Rle_trans with (((k + A * l) * u * s) * ((1 + / 1000) * / r)); [|right; field; lra].
    apply Rmult_le_compat; [apply Rabs_pos|left; now apply Rinv_0_lt_compat| |exact I].
    eapply Rle_trans; [apply Rabs_triang|].
    assert (Q : Rabs (a / r * (r - B2R y)) <= A * l * u * s).
    { unfold Rdiv. rewrite !Rabs_mult. rewrite (Rabs_pos_eq (/ r)) by (left; now apply Rinv_0_lt_compat).
      rewrite Rabs_minus_sym. apply Rle_trans with (A * s * / r * (l * u * r)); [|right; field; lra].
      apply Rmult_le_compat; [|apply Rabs_pos| |exact Hy].
      - apply Rmult_le_pos; [apply Rabs_pos|]. left; now apply Rinv_0_lt_compat.
      - apply Rmult_le_compat_r; [|exact Ha]. left; now apply Rinv_0_lt_compat. }
    lra.
  - unfold Rdiv. rewrite Rabs_mult, (Rabs_pos_eq (/ r)) by (left; now apply Rinv_0_lt_compat).
    rewrite <- Rmult_assoc. apply Rmult_le_compat_r; [|exact Ha]. left; now apply Rinv_0_lt_compat.
  - destruct (val_div_rnd x y _ _ (finite_val _ Fx) (finite_val _ Fy)) as [F E]; [lra|exact N1|].
    split; [exact F|]. now rewrite E.
Qed.

(** ** The parts of the formulas *)

Lemma near_int z k : (Z.abs z <= 2 ^ 53)%Z -> near (nofZ z) (IZR z) 0 k.
Proof. intros Hz. apply near_val. now apply val_int. Qed.

Lemma near_length ta tb a b : val ta a -> val tb b -> middling (b - a) -> near (nsub tb ta) (b - a) (11 / 10) (b - a).
Proof.
  intros Ha Hb Hm. pose proof (middling_pos _ Hm) as P. eapply near_weaken; [lra| |].
  - apply (near_sub tb ta b a 0 0 1); try (apply near_val; assumption); try lra; auto. rewrite Rabs_pos_eq; lra.
  - lra.
Qed.

Lemma near_alpha t ta tb c a b : val t c -> val ta a -> val tb b -> a <= c <= b -> middling (b - a) ->
  near (ndiv (nsub t ta) (nsub tb ta)) ((c - a) / (b - a)) (33 / 10) 1.
Proof.
  intros Hc Ha Hb Hr Hm. pose proof (middling_pos _ Hm) as P.
  assert (E : 1 = (b - a) / (b - a)) by (field; lra).
  assert (M1 : middling ((b - a) / (b - a))) by (rewrite <- E; apply middling_one).
  pose proof (near_length ta tb a b Ha Hb Hm) as Hd.
  assert (Hn : near (nsub t ta) (c - a) (11 / 10) (b - a)).
  { eapply near_weaken; [lra| |].
    - apply (near_sub t ta c a 0 0 1); try (apply near_val; assumption); try lra; auto. rewrite Rabs_pos_eq; lra.
    - lra. }
  rewrite E at 1. eapply near_weaken; [rewrite <- E; lra| |].
  - apply (near_div (nsub t ta) (nsub tb ta) (c - a) (11 / 10) (11 / 10) 1 (b - a) (b - a)); auto; try lra.
    rewrite Rabs_pos_eq; lra.
  - lra.
Qed.

Lemma near_inverse ta tb a b : val ta a -> val tb b -> middling (b - a) -> middling (/ (b - a)) ->
  near (ndiv (nofZ 1) (nsub tb ta)) (/ (b - a)) (22 / 10) (/ (b - a)).
Proof.
  intros Ha Hb Hm Hi. pose proof (middling_pos _ Hm) as P. pose proof (middling_pos _ Hi) as Pi.
  replace (/ (b - a)) with (1 / (b - a)) in * by (field; lra).
  eapply near_weaken; [lra| |].
  - apply (near_div _ _ 1 0 (11 / 10) 1 1 (b - a)); auto; try lra.
    + apply (near_int 1); vm_compute; discriminate.
    + now apply near_length.
    + rewrite Rabs_R1. lra.
  - lra.
Qed.

Lemma near_scale x a k s s' : s = s' -> near x a k s -> near x a k s'.
Proof. now intros ->. Qed.

(** A product, a sum and a difference whose error is given in advance. *)
Lemma do_mul x y a b k l A B s r z m : near x a k s -> near y b l r -> Rabs a <= A * s -> Rabs b <= B * r ->
  middling z -> 0 < s -> 0 < r -> s * r = z ->
  (0 <= A <= 10 /\ 0 <= B <= 10 /\ 0 <= k <= 400 /\ 0 <= l <= 500 /\ A * l + B * k + A * B + / 50 <= m) ->
  near (nmul x y) (a * b) m z.
Proof.
  intros Hx Hy Ha Hb Hz Ps Pr E (HA & HB & Hk & Hl & Hm). subst z. eapply near_weaken; [|eapply near_mul; eauto|exact Hm].
  left. now apply middling_pos.
Qed.
Lemma do_add x y a b k l B s m : near x a k s -> near y b l s -> Rabs (a + b) <= B * s -> middling s ->
  (0 <= k /\ 0 <= l /\ k + l <= 10000 /\ 0 <= B <= 100 /\ k + l + B + / 100 <= m) -> near (nadd x y) (a + b) m s.
Proof.
  intros Hx Hy Ha Hs (H1 & H2 & H3 & H4 & H5). eapply near_weaken; [|eapply near_add; eauto|exact H5].
  left. now apply middling_pos.
Qed.
Lemma do_sub x y a b k l B s m : near x a k s -> near y b l s -> Rabs (a - b) <= B * s -> middling s ->
  (0 <= k /\ 0 <= l /\ k + l <= 10000 /\ 0 <= B <= 100 /\ k + l + B + / 100 <= m) -> near (nsub x y) (a - b) m s.
Proof.
  intros Hx Hy Ha Hs (H1 & H2 & H3 & H4 & H5). eapply near_weaken; [|eapply near_sub; eauto|exact H5].
  left. now apply middling_pos.
Qed.

Ltac nint z := apply (near_int z); vm_compute; discriminate.
Ltac fit := repeat split; lra.

Section Polynomials.
Variables (alpha : b64) (x : R).
Hypothesis Hal : near alpha x (33 / 10) 1.
Hypothesis Hx : 0 <= x <= 1.
Let one := middling_one.

Lemma abs_between a b : - b <= a <= b -> Rabs a <= b.
Proof. intros H. now apply Rabs_le. Qed.

Lemma x2_range : 0 <= x * x <= x. Proof. nra. Qed.
Lemma x3_range : 0 <= x * x * x <= x * x. Proof. pose proof x2_range. nra. Qed.

Lemma near_x2 : near (nmul alpha alpha) (x * x) (77 / 10) 1.
Proof.
  eapply do_mul with (A := 1) (B := 1); try exact Hal; try exact one; try lra;
    apply abs_between; lra.
Qed.
Lemma near_x3 : near (nmul (nmul alpha alpha) alpha) (x * x * x) (121 / 10) 1.
Proof.
  pose proof x2_range. eapply do_mul with (A := 1) (B := 1); [exact near_x2|exact Hal|..]; try exact one; try lra;
    apply abs_between; lra.
Qed.
Lemma near_times z (y : b64) a k m : near y a k 1 -> 0 <= a <= 1 -> (1 <= z <= 6)%Z -> 0 <= k <= 400 -> IZR z * k + IZR z + / 50 <= m ->
  near (nmul (nofZ z) y) (IZR z * a) m 1.
Proof.
  intros Hy Ha Hz Hk Hm. assert (Z1 : 1 <= IZR z <= 6) by (split; apply IZR_le; lia).
  eapply do_mul with (A := IZR z) (B := 1) (k := 0) (s := 1) (r := 1); try exact one; try exact Hy; try lra.
  - apply near_int. lia.
  - apply abs_between; lra.
  - apply abs_between; lra.
Qed.

Lemma beta0_range : 0 <= 2 * (x * x * x) - 3 * (x * x) + 1 <= 1.
Proof.
  replace (2 * (x * x * x) - 3 * (x * x) + 1) with ((1 - x) * (1 - x) * (1 + 2 * x)) by ring.
  pose proof x2_range. pose proof x3_range. split; [|nra].
  apply Rmult_le_pos; [|lra]. nra.
Qed.
Lemma beta2_range : 0 <= x * x * x - 2 * (x * x) + x <= 1 / 5.
Proof.
  replace (x * x * x - 2 * (x * x) + x) with (x * ((1 - x) * (1 - x))) by ring. split.
  - apply Rmult_le_pos; [lra|]. nra.
  - assert (Q : 0 <= (x - 1 / 3) * (x - 1 / 3) * (4 / 3 - x)) by (apply Rmult_le_pos; [apply Rle_0_sqr|lra]).
    replace ((x - 1 / 3) * (x - 1 / 3) * (4 / 3 - x)) with (4 / 27 - x * ((1 - x) * (1 - x))) in Q by field. lra.
Qed.
Lemma beta3_range : - (1 / 5) <= x * x * x - x * x <= 0.
Proof.
  pose proof x3_range. split; [|lra].
  assert (Q : 0 <= (x - 2 / 3) * (x - 2 / 3) * (1 / 3 + x)) by (apply Rmult_le_pos; [apply Rle_0_sqr|lra]).
  replace ((x - 2 / 3) * (x - 2 / 3) * (1 / 3 + x)) with (4 / 27 - (x * x - x * x * x)) in Q by field. lra.
Qed.

Lemma near_beta0 : near (nadd (nsub (nmul (nofZ 2) (nmul (nmul alpha alpha) alpha)) (nmul (nofZ 3) (nmul alpha alpha))) (nofZ 1))
  (2 * (x * x * x) - 3 * (x * x) + 1) 56 1.
Proof.
  pose proof x2_range. pose proof x3_range. pose proof beta0_range.
  eapply do_add with (B := 1) (k := 549 / 10) (l := 0); [|nint 1%Z| |exact one|fit].
  - eapply do_sub with (B := 1) (k := 263 / 10) (l := 262 / 10); [| | |exact one|fit].
    + eapply (near_times 2); [exact near_x3|lra|lia|lra|lra].
    + eapply (near_times 3); [exact near_x2|lra|lia|lra|lra].
    + apply abs_between; lra.
  - apply abs_between; lra.
Qed.
Lemma near_beta1 : near (nadd (nmul (nopp (nofZ 2)) (nmul (nmul alpha alpha) alpha)) (nmul (nofZ 3) (nmul alpha alpha)))
  (- (2) * (x * x * x) + 3 * (x * x)) 54 1.
Proof.
  pose proof x2_range. pose proof x3_range. pose proof beta0_range.
  eapply do_add with (B := 1) (k := 263 / 10) (l := 262 / 10); [| | |exact one|fit].
  - eapply do_mul with (A := 2) (B := 1) (k := 0) (l := 121 / 10) (s := 1) (r := 1); try exact one; try exact near_x3; try lra.
    + apply near_opp. nint 2%Z.
    + rewrite Rabs_Ropp, Rabs_pos_eq; lra.
    + apply abs_between; lra.
  - eapply (near_times 3); [exact near_x2|lra|lia|lra|lra].
  - apply abs_between; lra.
Qed.
Lemma near_beta2 : near (nadd (nsub (nmul (nmul alpha alpha) alpha) (nmul (nofZ 2) (nmul alpha alpha))) alpha)
  (x * x * x - 2 * (x * x) + x) 35 1.
Proof.
  pose proof x2_range. pose proof x3_range. pose proof beta2_range.
  eapply do_add with (B := 1 / 5) (k := 308 / 10) (l := 33 / 10); [|exact Hal| |exact one|fit].
  - eapply do_sub with (B := 1) (k := 121 / 10) (l := 175 / 10); [exact near_x3| | |exact one|fit].
    + eapply (near_times 2); [exact near_x2|lra|lia|lra|lra].
    + apply abs_between; lra.
  - apply abs_between; lra.
Qed.
Lemma near_beta3 : near (nsub (nmul (nmul alpha alpha) alpha) (nmul alpha alpha)) (x * x * x - x * x) 21 1.
Proof.
  pose proof beta3_range. eapply do_sub with (B := 1 / 5); [exact near_x3|exact near_x2| |exact one|fit].
  apply abs_between; lra.
Qed.

(** Derivatives. *)
Lemma near_gamma0 : near (nmul (nofZ 6) (nsub (nmul alpha alpha) alpha)) (6 * (x * x - x)) 70 1.
Proof.
  assert (R1 : - (1 / 4) <= x * x - x <= 0) by (pose proof (Rle_0_sqr (x - 1 / 2)); unfold Rsqr in *; nra).
  eapply do_mul with (A := 6) (B := 1 / 4) (k := 0) (l := 114 / 10) (s := 1) (r := 1); try exact one; try lra.
  - nint 6%Z.
  - eapply do_sub with (B := 1 / 4); [exact near_x2|exact Hal| |exact one|fit]. apply abs_between; lra.
  - rewrite Rabs_pos_eq; lra.
  - apply abs_between; lra.
Qed.
Lemma near_gamma2 : near (nmul (nofZ 6) (nsub alpha (nmul alpha alpha))) (6 * (x - x * x)) 70 1.
Proof.
  assert (R1 : - (1 / 4) <= x * x - x <= 0) by (pose proof (Rle_0_sqr (x - 1 / 2)); unfold Rsqr in *; nra).
  eapply do_mul with (A := 6) (B := 1 / 4) (k := 0) (l := 114 / 10) (s := 1) (r := 1); try exact one; try lra.
  - nint 6%Z.
  - eapply do_sub with (B := 1 / 4); [exact Hal|exact near_x2| |exact one|fit]. apply abs_between; lra.
  - rewrite Rabs_pos_eq; lra.
  - apply abs_between; lra.
Qed.
Lemma near_gamma1 : near (nadd (nsub (nmul (nofZ 3) (nmul alpha alpha)) (nmul (nofZ 4) alpha)) (nofZ 1))
  (3 * (x * x) - 4 * x + 1) 47 1.
Proof.
  pose proof x2_range. assert (R1 : - (4 / 3) <= 3 * (x * x) - 4 * x <= 0)
    by (pose proof (Rle_0_sqr (x - 2 / 3)); unfold Rsqr in *; nra).
  eapply do_add with (B := 1) (k := 459 / 10) (l := 0); [|nint 1%Z| |exact one|fit].
  - eapply do_sub with (B := 4 / 3) (k := 262 / 10) (l := 173 / 10); [| | |exact one|fit].
    + eapply (near_times 3); [exact near_x2|lra|lia|lra|lra].
    + eapply (near_times 4); [exact Hal|lra|lia|lra|lra].
    + apply abs_between; lra.
  - apply abs_between; lra.
Qed.
Lemma near_gamma3 : near (nsub (nmul (nofZ 3) (nmul alpha alpha)) (nmul (nofZ 2) alpha)) (3 * (x * x) - 2 * x) 36 1.
Proof.
  pose proof x2_range. assert (R1 : - (1 / 3) <= 3 * (x * x) - 2 * x <= 1)
    by (pose proof (Rle_0_sqr (x - 1 / 3)); unfold Rsqr in *; nra).
  eapply do_sub with (B := 1) (k := 262 / 10) (l := 87 / 10); [| | |exact one|fit].
  - eapply (near_times 3); [exact near_x2|lra|lia|lra|lra].
  - eapply (near_times 2); [exact Hal|lra|lia|lra|lra].
  - apply abs_between; lra.
Qed.
End Polynomials.

(** ** One coordinate of a segment *)

(** Magnitudes between 2^-200 and 2^200. *)
Definition moderate (s : R) : Prop := bpow radix2 (-200) <= s <= bpow radix2 200.

Lemma moderate_pos s : moderate s -> 0 < s.
Proof. intros [A _]. eapply Rlt_le_trans; [apply bpow_gt_0|exact A]. Qed.

Lemma moderate_inv s : moderate s -> moderate (/ s).
Proof.
  intros [A B]. assert (P : 0 < s) by (now apply moderate_pos). split.
  - change (-200)%Z with (- (200))%Z. rewrite bpow_opp. now apply Rinv_le.
  - change 200%Z with (- (-200))%Z. rewrite bpow_opp. apply Rinv_le; [apply bpow_gt_0|exact A].
Qed.

Lemma moderate_middling s : moderate s -> middling s.
Proof. intros [A B]. split; [eapply Rle_trans; [|exact A]|eapply Rle_trans; [exact B|]]; apply bpow_le; lia. Qed.

Lemma moderate_mul s r : moderate s -> moderate r -> middling (s * r).
Proof.
  intros [A B] [C D]. pose proof (bpow_ge_0 radix2 (-200)) as P. split.
  - apply Rle_trans with (bpow radix2 (-200) * bpow radix2 (-200)); [rewrite <- bpow_plus; apply bpow_le; lia|].
    now apply Rmult_le_compat.
  - apply Rle_trans with (bpow radix2 200 * bpow radix2 200); [apply Rmult_le_compat; lra|].
    rewrite <- bpow_plus; apply bpow_le; lia.
Qed.

Lemma moderate_mul3 s r q : moderate s -> moderate r -> moderate q -> middling (s * r * q).
Proof.
  intros [A B] [C D] [E F]. pose proof (bpow_ge_0 radix2 (-200)) as P. split.
  - apply Rle_trans with (bpow radix2 (-200) * bpow radix2 (-200) * bpow radix2 (-200)).
    + rewrite <- !bpow_plus; apply bpow_le; lia.
    + apply Rmult_le_compat; auto; [apply Rmult_le_pos; auto|]. now apply Rmult_le_compat.
  - apply Rle_trans with (bpow radix2 200 * bpow radix2 200 * bpow radix2 200).
    + apply Rmult_le_compat; try lra; [apply Rmult_le_pos; lra|]. apply Rmult_le_compat; lra.
    + rewrite <- !bpow_plus; apply bpow_le; lia.
Qed.

(** [e3_segment_acceleration] in one coordinate. *)
Definition ddblend (alpha inv pa va pb vb : b64) : b64 :=
  (let d_gamma0 := #6 * (#2 * alpha - #1) * inv in
   let d_gamma1 := (#6 * alpha - #4) * inv in
   let d_gamma2 := #6 * (#1 - #2 * alpha) * inv in
   let d_gamma3 := (#6 * alpha - #2) * inv in
   pa * d_gamma0 * inv + va * d_gamma1 + pb * d_gamma2 * inv + vb * d_gamma3)%num.

Lemma segment_ddblend (ta tb : b64) (ka kb : knot b64) (t : b64) :
  let b := ddblend ((t - ta) / (tb - ta))%num (#1 / (tb - ta))%num in
  e3_segment_acceleration ta tb ka kb t =
  V3 (b (vx (k_pos ka)) (vx (k_vel ka)) (vx (k_pos kb)) (vx (k_vel kb)))
     (b (vy (k_pos ka)) (vy (k_vel ka)) (vy (k_pos kb)) (vy (k_vel kb)))
     (b (vz (k_pos ka)) (vz (k_vel ka)) (vz (k_pos kb)) (vz (k_vel kb))).
Proof. reflexivity. Qed.

Section Coordinate.
Variables (M D x : R) (alpha dt inv pa va pb vb : b64).
Hypothesis HM : moderate M.
Hypothesis HD : moderate D.
Hypothesis Hx : 0 <= x <= 1.
Hypothesis Hal : near alpha x (33 / 10) 1.
Hypothesis Hdt : near dt D (11 / 10) D.
Hypothesis Hinv : near inv (/ D) (22 / 10) (/ D).
Hypothesis Hpa : is_finite pa = true.
Hypothesis Hpb : is_finite pb = true.
Hypothesis Hva : is_finite va = true.
Hypothesis Hvb : is_finite vb = true.
Let a := B2R pa. Let b := B2R pb. Let v := B2R va. Let w := B2R vb.
Hypothesis Ba : Rabs a <= M.
Hypothesis Bb : Rabs b <= M.
Hypothesis Bv : Rabs v * D <= M.
Hypothesis Bw : Rabs w * D <= M.

Let PM : 0 < M := moderate_pos M HM.
Let PD : 0 < D := moderate_pos D HD.
Let mM : middling M := moderate_middling M HM.
Let mD : middling D := moderate_middling D HD.
Let miD : middling (/ D) := moderate_middling _ (moderate_inv D HD).
Let mMD : middling (M * / D) := moderate_mul M (/ D) HM (moderate_inv D HD).
Let mMDD : middling (M * / D * / D) := moderate_mul3 M _ _ HM (moderate_inv D HD) (moderate_inv D HD).
Let PiD : 0 < / D := middling_pos _ miD.
Let PMD : 0 < M * / D := middling_pos _ mMD.

Lemma Bv' : Rabs v <= 1 * (M * / D).
Proof. rewrite Rmult_1_l. apply Rmult_le_reg_r with D; [exact PD|]. rewrite Rmult_assoc, Rinv_l by lra. lra. Qed.
Lemma Bw' : Rabs w <= 1 * (M * / D).
Proof. rewrite Rmult_1_l. apply Rmult_le_reg_r with D; [exact PD|]. rewrite Rmult_assoc, Rinv_l by lra. lra. Qed.

Lemma scaled c d B s : Rabs c <= s -> - B <= d <= B -> Rabs (c * d) <= B * s.
Proof.
  intros Hc Hd. rewrite Rabs_mult, Rmult_comm. apply Rmult_le_compat; auto using Rabs_pos. now apply Rabs_le.
Qed.
Lemma sum_bound c d B C s : Rabs c <= B * s -> Rabs d <= C * s -> Rabs (c + d) <= (B + C) * s.
Proof. intros Hc Hd. eapply Rle_trans; [apply Rabs_triang|]. lra. Qed.

Definition exact_value : R :=
  a * (2 * (x * x * x) - 3 * (x * x) + 1) + b * (- (2) * (x * x * x) + 3 * (x * x)) +
  v * ((x * x * x - 2 * (x * x) + x) * D) + w * ((x * x * x - x * x) * D).

Lemma velocity_part c (y : b64) (q k m B : R) : is_finite y = true -> Rabs (B2R y) <= 1 * (M * / D) ->
  forall z : b64, near z q k 1 -> - B <= q <= B -> 0 <= B <= 1 / 5 -> 0 <= k <= 100 -> k + 2 * B + 1 <= m -> c = B2R y ->
  near (nmul y (nmul z dt)) (c * (q * D)) m M /\ Rabs (c * (q * D)) <= B * M.
Proof.
  intros Fy By z Hz Hq HB Hk Hm ->. assert (Bq : Rabs (q * D) <= B * D).
  { rewrite Rabs_mult, (Rabs_pos_eq D) by lra. apply Rmult_le_compat_r; [lra|]. now apply Rabs_le. }
  split.
  - eapply do_mul with (A := 1) (B := B) (k := 0) (l := k + B * (11 / 10) + B + / 50) (s := M * / D) (r := D);
      try exact mM; try lra; auto.
    + apply near_val. now apply finite_val.
    + eapply do_mul with (A := B) (B := 1) (s := 1) (r := D); [exact Hz|exact Hdt|..]; try exact mD; try lra.
      * rewrite Rmult_1_r. now apply Rabs_le.
      * rewrite Rabs_pos_eq; lra.
      * repeat split; try lra.
    + field. lra.
    + repeat split; try lra.
  - rewrite Rabs_mult. apply Rle_trans with ((1 * (M * / D)) * (B * D)).
    + apply Rmult_le_compat; auto using Rabs_pos.
    + right. field. lra.
Qed.

Lemma blend_error : near (blend alpha dt pa va pb vb) exact_value 256 M.
Proof.
  pose proof (beta0_range x Hx) as R0. pose proof (beta2_range x Hx) as R2. pose proof (beta3_range x Hx) as R3.
  pose proof (near_beta0 alpha x Hal Hx) as N0. pose proof (near_beta1 alpha x Hal Hx) as N1.
  pose proof (near_beta2 alpha x Hal Hx) as N2. pose proof (near_beta3 alpha x Hal Hx) as N3.
  destruct (velocity_part v va _ 35 (37 - / 2) (1 / 5) Hva Bv' _ N2 ltac:(lra) ltac:(lra) ltac:(lra) ltac:(lra) eq_refl) as [V1 V2].
  destruct (velocity_part w vb _ 21 (23 - / 2) (1 / 5) Hvb Bw' _ N3 ltac:(lra) ltac:(lra) ltac:(lra) ltac:(lra) eq_refl) as [W1 W2].
  assert (A2 : Rabs (a * (2 * (x * x * x) - 3 * (x * x) + 1)) <= 1 * M) by (apply scaled; auto; lra).
  assert (B2 : Rabs (b * (- (2) * (x * x * x) + 3 * (x * x))) <= 1 * M) by (apply scaled; auto; lra).
  assert (A1 : near (nmul pa (nadd (nsub (nmul (nofZ 2) (nmul (nmul alpha alpha) alpha)) (nmul (nofZ 3) (nmul alpha alpha))) (nofZ 1)))
    (a * (2 * (x * x * x) - 3 * (x * x) + 1)) 58 M).
  { eapply do_mul with (A := 1) (B := 1) (k := 0) (s := M) (r := 1); [|exact N0|..]; try exact mM; try lra.
    - apply near_val. now apply finite_val.
    - apply abs_between; lra. }
  assert (B1 : near (nmul pb (nadd (nmul (nopp (nofZ 2)) (nmul (nmul alpha alpha) alpha)) (nmul (nofZ 3) (nmul alpha alpha))))
    (b * (- (2) * (x * x * x) + 3 * (x * x))) 56 M).
  { eapply do_mul with (A := 1) (B := 1) (k := 0) (s := M) (r := 1); [|exact N1|..]; try exact mM; try lra.
    - apply near_val. now apply finite_val.
    - apply abs_between; lra. }
  unfold blend, exact_value. cbv zeta.
  pose proof (sum_bound _ _ _ _ _ A2 B2) as S1. pose proof (sum_bound _ _ _ _ _ S1 V2) as S2.
  pose proof (sum_bound _ _ _ _ _ S2 W2) as S3.
  eapply do_add with (B := 1 + 1 + 1 / 5 + 1 / 5) (k := 156) (l := 23 - / 2); [|exact W1|exact S3|exact mM|fit].
  eapply do_add with (B := 1 + 1 + 1 / 5) (k := 117) (l := 37 - / 2); [|exact V1|exact S2|exact mM|fit].
  eapply do_add; [exact A1|exact B1|exact S1|exact mM|fit].
Qed.

(** A position times a polynomial over the length of the segment. *)
Lemma position_part c (y : b64) (q k m B : R) : is_finite y = true -> Rabs (B2R y) <= M ->
  forall z : b64, near z q k 1 -> - B <= q <= B -> 0 <= B <= 6 -> 0 <= k <= 100 -> k + B * (42 / 10) + / 25 <= m -> c = B2R y ->
  near (nmul y (nmul z inv)) (c * (q * / D)) m (M * / D) /\ Rabs (c * (q * / D)) <= B * (M * / D).
Proof.
  intros Fy By z Hz Hq HB Hk Hm ->. assert (Bq : Rabs (q * / D) <= B * / D).
  { rewrite Rabs_mult, (Rabs_pos_eq (/ D)) by lra. apply Rmult_le_compat_r; [lra|]. now apply Rabs_le. }
  split.
  - eapply do_mul with (A := 1) (B := B) (k := 0) (l := k + B * (22 / 10) + B + / 50) (s := M) (r := / D);
      try exact mMD; try lra; auto.
    + apply near_val. now apply finite_val.
    + eapply do_mul with (A := B) (B := 1) (s := 1) (r := / D); [exact Hz|exact Hinv|..]; try exact miD; try lra.
      * rewrite Rmult_1_r. now apply Rabs_le.
      * rewrite Rabs_pos_eq; lra.
      * repeat split; try lra.
    + repeat split; try lra.
  - rewrite Rabs_mult. apply Rle_trans with (M * (B * / D)).
    + apply Rmult_le_compat; auto using Rabs_pos.
    + right. ring.
Qed.

(** A velocity times a polynomial. *)
Lemma speed_part c (y : b64) (q k m B : R) : is_finite y = true -> Rabs (B2R y) <= 1 * (M * / D) ->
  forall z : b64, near z q k 1 -> - B <= q <= B -> 0 <= B <= 6 -> 0 <= k <= 100 -> k + B + / 50 <= m -> c = B2R y ->
  near (nmul y z) (c * q) m (M * / D) /\ Rabs (c * q) <= B * (M * / D).
Proof.
  intros Fy By z Hz Hq HB Hk Hm ->. split.
  - eapply do_mul with (A := 1) (B := B) (k := 0) (s := M * / D) (r := 1); [|exact Hz|..]; try exact mMD; try lra.
    + apply near_val. now apply finite_val.
    + rewrite Rmult_1_r. now apply Rabs_le.
  - rewrite Rmult_1_l in By. now apply scaled.
Qed.

Definition exact_velocity : R :=
  a * (6 * (x * x - x) * / D) + v * (3 * (x * x) - 4 * x + 1) +
  b * (6 * (x - x * x) * / D) + w * (3 * (x * x) - 2 * x).

Lemma dblend_error : near (dblend alpha inv pa va pb vb) exact_velocity 256 (M * / D).
Proof.
  assert (R0 : - (1 / 4) <= x * x - x <= 0) by (pose proof (Rle_0_sqr (x - 1 / 2)); unfold Rsqr in *; nra).
  assert (R1 : - (4 / 3) <= 3 * (x * x) - 4 * x <= 0) by (pose proof (Rle_0_sqr (x - 2 / 3)); unfold Rsqr in *; nra).
  assert (R3 : - (1 / 3) <= 3 * (x * x) - 2 * x <= 1) by (pose proof (Rle_0_sqr (x - 1 / 3)); unfold Rsqr in *; nra).
  pose proof (near_gamma0 alpha x Hal Hx) as N0. pose proof (near_gamma1 alpha x Hal Hx) as N1.
  pose proof (near_gamma2 alpha x Hal Hx) as N2. pose proof (near_gamma3 alpha x Hal Hx) as N3.
  destruct (position_part a pa _ 70 (764 / 10) (3 / 2) Hpa Ba _ N0 ltac:(lra) ltac:(lra) ltac:(lra) ltac:(lra) eq_refl) as [A1 A2].
  destruct (position_part b pb _ 70 (764 / 10) (3 / 2) Hpb Bb _ N2 ltac:(lra) ltac:(lra) ltac:(lra) ltac:(lra) eq_refl) as [B1 B2].
  destruct (speed_part v va _ 47 (481 / 10) 1 Hva Bv' _ N1 ltac:(lra) ltac:(lra) ltac:(lra) ltac:(lra) eq_refl) as [V1 V2].
  destruct (speed_part w vb _ 36 (371 / 10) 1 Hvb Bw' _ N3 ltac:(lra) ltac:(lra) ltac:(lra) ltac:(lra) eq_refl) as [W1 W2].
  unfold dblend, exact_velocity. cbv zeta.
  pose proof (sum_bound _ _ _ _ _ A2 V2) as S1. pose proof (sum_bound _ _ _ _ _ S1 B2) as S2.
  pose proof (sum_bound _ _ _ _ _ S2 W2) as S3.
  eapply do_add with (k := 208); [|exact W1|exact S3|exact mMD|fit].
  eapply do_add with (k := 1272 / 10); [|exact B1|exact S2|exact mMD|fit].
  eapply do_add; [exact A1|exact V1|exact S1|exact mMD|fit].
Qed.

Definition exact_acceleration : R :=
  a * (6 * (2 * x - 1) * / D) * / D + v * ((6 * x - 4) * / D) +
  b * (6 * (1 - 2 * x) * / D) * / D + w * ((6 * x - 2) * / D).

Lemma rate_part c (y : b64) (q k m B : R) : is_finite y = true -> Rabs (B2R y) <= 1 * (M * / D) ->
  forall z : b64, near z q k 1 -> - B <= q <= B -> 0 <= B <= 6 -> 0 <= k <= 100 -> k + B * (42 / 10) + / 25 <= m -> c = B2R y ->
  near (nmul y (nmul z inv)) (c * (q * / D)) m (M * / D * / D) /\ Rabs (c * (q * / D)) <= B * (M * / D * / D).
Proof.
  intros Fy By z Hz Hq HB Hk Hm ->. assert (Bq : Rabs (q * / D) <= B * / D).
  { rewrite Rabs_mult, (Rabs_pos_eq (/ D)) by lra. apply Rmult_le_compat_r; [lra|]. now apply Rabs_le. }
  split.
  - eapply do_mul with (A := 1) (B := B) (k := 0) (l := k + B * (22 / 10) + B + / 50) (s := M * / D) (r := / D);
      try exact mMDD; try lra; auto.
    + apply near_val. now apply finite_val.
    + eapply do_mul with (A := B) (B := 1) (s := 1) (r := / D); [exact Hz|exact Hinv|..]; try exact miD; try lra.
      * rewrite Rmult_1_r. now apply Rabs_le.
      * rewrite Rabs_pos_eq; lra.
      * repeat split; try lra.
    + repeat split; try lra.
  - rewrite Rabs_mult. apply Rle_trans with ((1 * (M * / D)) * (B * / D)).
    + apply Rmult_le_compat; auto using Rabs_pos.
    + right. ring.
Qed.

Lemma curvature_part c (y : b64) (q k : R) : is_finite y = true -> Rabs (B2R y) <= M ->
  forall z : b64, near z q k 1 -> - 6 <= q <= 6 -> 0 <= k <= 65 -> c = B2R y ->
  near (nmul (nmul y (nmul z inv)) inv) (c * (q * / D) * / D) 110 (M * / D * / D) /\
  Rabs (c * (q * / D) * / D) <= 6 * (M * / D * / D).
Proof.
  intros Fy By z Hz Hq Hk E.
  destruct (position_part c y q k (903 / 10) 6 Fy By z Hz Hq ltac:(lra) ltac:(lra) ltac:(lra) E) as [P1 P2]. split.
  - eapply do_mul with (A := 6) (B := 1) (s := M * / D) (r := / D); [exact P1|exact Hinv|..]; try exact mMDD; try lra.
    rewrite Rabs_pos_eq; lra.
  - rewrite Rabs_mult, (Rabs_pos_eq (/ D)) by lra.
    apply Rle_trans with (6 * (M * / D) * / D); [apply Rmult_le_compat_r; lra|right; ring].
Qed.

Lemma ddblend_error : near (ddblend alpha inv pa va pb vb) exact_acceleration 512 (M * / D * / D).
Proof.
  pose proof middling_one as one.
  assert (T2 : near (nmul (nofZ 2) alpha) (2 * x) (87 / 10) 1) by (eapply (near_times 2); [exact Hal|lra|lia|lra|lra]).
  assert (T6 : near (nmul (nofZ 6) alpha) (6 * x) 26 1) by (eapply (near_times 6); [exact Hal|lra|lia|lra|lra]).
  assert (I1 : forall s, near (nofZ 1) 1 0 s) by (intros; nint 1%Z).
  assert (G0 : near (nmul (nofZ 6) (nsub (nmul (nofZ 2) alpha) (nofZ 1))) (6 * (2 * x - 1)) 65 1).
  { eapply do_mul with (A := 6) (B := 1) (k := 0) (l := 98 / 10) (s := 1) (r := 1); try exact one; try lra.
    - nint 6%Z.
    - eapply do_sub with (B := 1); [exact T2|apply I1| |exact one|fit]. apply abs_between; lra.
    - rewrite Rabs_pos_eq; lra.
    - apply abs_between; lra. }
  assert (G2 : near (nmul (nofZ 6) (nsub (nofZ 1) (nmul (nofZ 2) alpha))) (6 * (1 - 2 * x)) 65 1).
  { eapply do_mul with (A := 6) (B := 1) (k := 0) (l := 98 / 10) (s := 1) (r := 1); try exact one; try lra.
    - nint 6%Z.
    - eapply do_sub with (B := 1); [apply I1|exact T2| |exact one|fit]. apply abs_between; lra.
    - rewrite Rabs_pos_eq; lra.
    - apply abs_between; lra. }
  assert (G1 : near (nsub (nmul (nofZ 6) alpha) (nofZ 4)) (6 * x - 4) 31 1).
  { eapply do_sub with (B := 4) (l := 0); [exact T6|nint 4%Z| |exact one|fit]. apply abs_between; lra. }
  assert (G3 : near (nsub (nmul (nofZ 6) alpha) (nofZ 2)) (6 * x - 2) 31 1).
  { eapply do_sub with (B := 4) (l := 0); [exact T6|nint 2%Z| |exact one|fit]. apply abs_between; lra. }
  destruct (curvature_part a pa _ 65 Hpa Ba _ G0 ltac:(lra) ltac:(lra) eq_refl) as [A1 A2].
  destruct (curvature_part b pb _ 65 Hpb Bb _ G2 ltac:(lra) ltac:(lra) eq_refl) as [B1 B2].
  destruct (rate_part v va _ 31 48 4 Hva Bv' _ G1 ltac:(lra) ltac:(lra) ltac:(lra) ltac:(lra) eq_refl) as [V1 V2].
  destruct (rate_part w vb _ 31 48 4 Hvb Bw' _ G3 ltac:(lra) ltac:(lra) ltac:(lra) ltac:(lra) eq_refl) as [W1 W2].
  unfold ddblend, exact_acceleration. cbv zeta.
  pose proof (sum_bound _ _ _ _ _ A2 V2) as S1. pose proof (sum_bound _ _ _ _ _ S1 B2) as S2.
  pose proof (sum_bound _ _ _ _ _ S2 W2) as S3.
  eapply do_add with (k := 297); [|exact W1|exact S3|exact mMDD|fit].
  eapply do_add with (k := 169); [|exact B1|exact S2|exact mMDD|fit].
  eapply do_add; [exact A1|exact V1|exact S1|exact mMDD|fit].
Qed.
End Coordinate.
