(** * C104: what the exported file preserves, and what the script reads from it *)

From Coq Require Import String.
From Coq Require Import List Bool Arith NArith ZArith Reals Lra Lia Ascii.
From Flocq Require Import Core Relative IEEE754.BinarySingleNaN.
From Verif Require Import Base TimeOrder TimeB64 Manager Num NumB64 HermiteErr Csv Quat HermiteE3 HermiteSE3 Export Props_Export Digits DigitsProofs Props_Digits Matlab.
Import ListNotations.
Local Open Scope R_scope.

Local Notation u := (bpow radix2 (-53)).
Local Notation rnd := (round radix2 (SpecFloat.fexp 53 1024) ZnearestE).
(** The last place that is written. *)
Local Notation micro := (/ 1000000).

Lemma micro_pow : 10^^ (-6) = micro.
Proof. reflexivity. Qed.

(** ** One number *)

Lemma fraction_cases m e B n d s : fraction_of m e = (n, d) ->
  let x := (B754_finite s m e B : b64) in
  (0 < n)%Z /\ (0 < d)%Z /\ B2R x = with_sign s (IZR n / IZR d) /\
  (d = 1%Z \/ IZR n / IZR d < bpow radix2 53).
Proof.
  intros Ef x. destruct (fraction_of_spec m e n d Ef) as (Hn & Hd & Eq). split; [exact Hn|]. split; [exact Hd|]. split.
  - rewrite Eq. unfold x. cbn [B2R]. unfold F2R. cbn [Fnum Fexp]. destruct s; cbn [cond_Zopp with_sign]; [|reflexivity]. rewrite opp_IZR. ring.
  - unfold fraction_of in Ef. destruct (Z.leb_spec 0 e) as [He|He]; [left; congruence|right].
    rewrite Eq. unfold F2R. cbn [Fnum Fexp].
    apply Rle_lt_trans with (IZR (Zpos m) * 1).
    + apply Rmult_le_compat_l; [apply IZR_le; lia|]. apply (bpow_le radix2 e 0). lia.
    + rewrite Rmult_1_r. change (bpow radix2 53) with (IZR (2 ^ 53)). apply IZR_lt.
      destruct (andb_prop _ _ B) as [C _]. unfold SpecFloat.canonical_mantissa in C. apply Zeq_bool_eq in C.
      pose proof (Zpower_gt_Zdigits radix2 53 (Zpos m)) as Z. unfold Z.abs in Z. apply Z.
      rewrite <- Zpos_digits2_pos. unfold SpecFloat.fexp, SpecFloat.emin in C. lia.
Qed.

Lemma scaled_integer n : (0 < n)%Z -> scaled (-6) n 1 = (n * 10 ^ 6)%Z.
Proof.
  intros Hn. apply scaled_unique; [lia|]. rewrite micro_pow, mult_IZR. change (IZR (10 ^ 6)) with 1000000.
  replace (IZR n * 1000000 * micro - IZR n / 1) with 0 by field. rewrite Rabs_R0. lra.
Qed.

(** The double read back is the one nearest to the decimal number that was written. *)
Lemma written_lf s m e B n d : fraction_of m e = (n, d) ->
  let x := (B754_finite s m e B : b64) in let N := scaled (-6) n d in
  show_lf x = signed s (fixed_text N) /\ (0 <= N)%Z /\ B2R x = with_sign s (IZR n / IZR d) /\ (0 < n)%Z /\ (0 < d)%Z /\
  Rabs (IZR N * micro - IZR n / IZR d) <= / 2 * micro /\
  is_finite (atof (show_lf x)) = true /\ B2R (atof (show_lf x)) = rnd (with_sign s (IZR N * micro)) /\
  (N = 0%Z -> atof (show_lf x) = B754_zero s).
Proof.
  intros Ef x N. destruct (fraction_cases m e B n d s Ef) as (Hn & Hd & Ex & C). fold x in Ex.
  assert (T : show_lf x = signed s (fixed_text N)) by (unfold x, show_lf; rewrite Ef; reflexivity).
  pose proof (scaled_spec (-6) n d Hd) as S. fold N in S. rewrite micro_pow in S.
  assert (Q : 0 < IZR n / IZR d) by (apply Rdiv_lt_0_compat; now apply IZR_lt).
  assert (HN : (0 <= N)%Z).
  { apply Rabs_le_inv in S. assert (X : -1 < IZR N) by lra. apply lt_IZR in X. lia. }
  do 6 (split; [assumption|]). rewrite T.
  pose proof (fixed_read N HN) as V. rewrite micro_pow in V. destruct (Z.eq_dec N 0) as [E0|N0].
  - assert (Z : atof (signed s (fixed_text N)) = B754_zero s).
    { apply atof_zero; [now apply fixed_first|]. rewrite V, E0. ring. }
    rewrite Z. split; [reflexivity|]. split; [|auto]. rewrite E0. replace (with_sign s (0 * micro)) with 0 by (destruct s; cbn [with_sign]; ring).
    symmetry. apply round_0. typeclasses eauto.
  - assert (PN : 0 < IZR N) by (apply IZR_lt; lia).
    destruct (atof_value s (fixed_text N) (IZR N * micro) (fixed_first N HN) V) as [A1 A2]; [lra| |now split; [|split; [|intros; contradiction]]].
    destruct C as [->|C].
    + unfold N. rewrite scaled_integer by exact Hn. rewrite mult_IZR. change (IZR (10 ^ 6)) with 1000000.
      replace (IZR n * 1000000 * micro) with (IZR n / 1) by field.
      assert (G : Rabs (rnd (B2R x)) < bpow radix2 1024) by (rewrite (rnd_val x (B2R x)) by (now apply finite_val); apply abs_B2R_lt_emax).
      rewrite Ex in G. destruct s; cbn [with_sign] in G; [|exact G]. rewrite round_NE_opp, Rabs_Ropp in G. exact G.
    + apply rnd_fits. split; [lra|]. rewrite largest_value. apply Rabs_le_inv in S.
      apply Rle_trans with (bpow radix2 53 + 1); [lra|]. change (bpow radix2 53) with (IZR (2 ^ 53)). rewrite <- plus_IZR. apply IZR_le. vm_compute. discriminate.
Qed.

(** What may happen to a number. *)
Definition kept6 (x y : b64) : Prop :=
  if is_finite x then is_finite y = true /\ Rabs (B2R y - B2R x) <= micro else y = x.

(** Every finite number survives up to an error of 1/1000000; infinities and NaN as they are. *)
Theorem C104_kept : forall x : b64, kept6 x (atof (show_lf x)).
Proof.
  intros x. unfold kept6. destruct x as [s|s| |s m e B]; cbn [is_finite]; try (destruct s; reflexivity); [|reflexivity|].
  - assert (E : atof (show_lf (B754_zero s)) = B754_zero s) by (destruct s; reflexivity). rewrite E. split; [reflexivity|].
    cbn [B2R]. rewrite Rminus_0_r, Rabs_R0. lra.
  - destruct (fraction_of m e) as [n d] eqn:Ef. destruct (written_lf s m e B n d Ef) as (_ & _ & Ex & _ & _ & S & A1 & A2 & _).
    split; [exact A1|]. rewrite A2. eapply Rle_trans; [now apply nearest_close|]. rewrite Ex, with_sign_abs. lra.
Qed.

(** Decimals with six places and absolute value below 2^52 / 1000000 (about 4.5e9) survive as they are. *)
Lemma micro_near m v : (Z.abs m < 2 ^ 52)%Z -> v = rnd (IZR m * micro) -> Rabs (IZR m * micro - v) < / 2 * micro.
Proof.
  intros Hm ->. destruct (Z.eq_dec m 0) as [->|N0].
  - replace (0 * micro) with 0 by ring. rewrite round_0 by typeclasses eauto. rewrite Rminus_0_r, Rabs_R0. lra.
  - rewrite Rabs_minus_sym.
    assert (P : 1 <= Rabs (IZR m)) by (rewrite <- abs_IZR; apply IZR_le; lia).
    assert (Q : Rabs (IZR m) < bpow radix2 52) by (rewrite <- abs_IZR; change (bpow radix2 52) with (IZR (2 ^ 52)); now apply IZR_lt).
    assert (E : Rabs (IZR m * micro) = Rabs (IZR m) * micro) by (rewrite Rabs_mult, (Rabs_pos_eq micro) by lra; reflexivity).
    assert (R : Rabs (rnd (IZR m * micro) - IZR m * micro) <= / 2 * bpow radix2 (-53 + 1) * Rabs (IZR m * micro)).
    { apply (relative_error_N_FLT radix2 (-1074) 53 ltac:(reflexivity)). rewrite E.
      apply Rle_trans with (bpow radix2 (-20)); [apply bpow_le; lia|]. simpl. lra. }
    rewrite E in R. change (-53 + 1)%Z with (-52)%Z in R. eapply Rle_lt_trans; [exact R|].
    assert (X : bpow radix2 (-52) * bpow radix2 52 = 1) by (rewrite <- bpow_plus; reflexivity). pose proof (bpow_gt_0 radix2 (-52)).
    nra.
Qed.

Lemma signed_scaled s m e B n d z : fraction_of m e = (n, d) -> Rabs (IZR z * micro - B2R (B754_finite s m e B : b64)) < / 2 * micro ->
  with_sign s (IZR (scaled (-6) n d)) = IZR z /\ (scaled (-6) n d = Z.abs z)%Z.
Proof.
  intros Ef H. destruct (fraction_cases m e B n d s Ef) as (Hn & Hd & Ex & _). rewrite Ex in H.
  assert (E : scaled (-6) n d = if s then (- z)%Z else z).
  { apply scaled_unique; [exact Hd|]. rewrite micro_pow. destruct s; cbn [with_sign] in H; [|exact H].
    rewrite opp_IZR, <- Rabs_Ropp. replace (- (- IZR z * micro - IZR n / IZR d)) with (IZR z * micro - - (IZR n / IZR d)) by ring. exact H. }
  pose proof (written_lf s m e B n d Ef) as (_ & P & _). rewrite E in *. split.
  - destruct s; cbn [with_sign]; rewrite ?opp_IZR; ring.
  - destruct s; lia.
Qed.

Theorem C104_decimals : forall (x : b64) m, is_finite x = true -> (Z.abs m < 2 ^ 52)%Z -> m <> 0%Z -> B2R x = rnd (IZR m * micro) ->
  atof (show_lf x) = x.
Proof.
  intros x z Fx Hz N0 Hx. pose proof (micro_near z (B2R x) Hz Hx) as H.
  assert (P : 1 <= Rabs (IZR z)) by (rewrite <- abs_IZR; apply IZR_le; lia).
  destruct x as [s|s| |s m e B]; try discriminate.
  - exfalso. cbn [B2R] in H. rewrite Rminus_0_r, Rabs_mult, (Rabs_pos_eq micro) in H by lra. lra.
  - destruct (fraction_of m e) as [n d] eqn:Ef. destruct (written_lf s m e B n d Ef) as (_ & _ & Ex & Hn & Hd & _ & A1 & A2 & _).
    destruct (signed_scaled s m e B n d z Ef H) as [W _].
    assert (E2 : with_sign s (IZR (scaled (-6) n d) * micro) = IZR z * micro) by (rewrite <- W; destruct s; cbn [with_sign]; ring).
    rewrite E2, <- Hx in A2. apply B2R_inj; [|reflexivity|exact A2].
    destruct (atof (show_lf (B754_finite s m e B))) as [s'|s'| |s' m' e' B'] eqn:Ea; try discriminate; [|reflexivity].
    exfalso. rewrite Ex in A2. cbn [B2R] in A2. assert (Q : 0 < IZR n / IZR d) by (apply Rdiv_lt_0_compat; now apply IZR_lt).
    destruct s; cbn [with_sign] in A2; lra.
Qed.

(** Integers survive as they are, however large. *)
Theorem C104_integers : forall (x : b64) z, is_finite x = true -> B2R x = IZR z -> atof (show_lf x) = x.
Proof.
  intros x z Fx Hx. destruct x as [s|s| |s m e B]; try discriminate; [destruct s; reflexivity|].
  destruct (fraction_of m e) as [n d] eqn:Ef. destruct (written_lf s m e B n d Ef) as (_ & _ & Ex & Hn & Hd & _ & A1 & A2 & _).
  destruct (signed_scaled s m e B n d (z * 10 ^ 6) Ef) as [W _].
  { rewrite Hx, mult_IZR. change (IZR (10 ^ 6)) with 1000000. replace (IZR z * 1000000 * micro - IZR z) with 0 by field. rewrite Rabs_R0. lra. }
  assert (E2 : with_sign s (IZR (scaled (-6) n d) * micro) = IZR z).
  { rewrite mult_IZR in W. change (IZR (10 ^ 6)) with 1000000 in W. replace (IZR z) with (IZR z * 1000000 * micro) by field. rewrite <- W. destruct s; cbn [with_sign]; ring. }
  rewrite E2, <- Hx in A2. rewrite (rnd_val (B754_finite s m e B) _ (finite_val (B754_finite s m e B) eq_refl)) in A2. apply B2R_inj; [|reflexivity|exact A2].
  destruct (atof (show_lf (B754_finite s m e B))) as [s'|s'| |s' m' e' B'] eqn:Ea; try discriminate; [|reflexivity].
  exfalso. rewrite Ex in A2. cbn [B2R] in A2. assert (Q : 0 < IZR n / IZR d) by (apply Rdiv_lt_0_compat; now apply IZR_lt).
  destruct s; cbn [with_sign] in A2; lra.
Qed.

(** ** Order *)

(** The number written, in units of 1/1000000. *)
Definition micros (x : b64) : Z :=
  match x with
  | B754_finite s m e _ => let (n, d) := fraction_of m e in if s then (- scaled (-6) n d)%Z else scaled (-6) n d
  | _ => 0%Z
  end.

Lemma micros_spec (x : b64) : is_finite x = true ->
  Rabs (IZR (micros x) * micro - B2R x) <= / 2 * micro /\ B2R (atof (show_lf x)) = rnd (IZR (micros x) * micro).
Proof.
  intros Fx. destruct x as [s|s| |s m e B]; try discriminate.
  - cbn [micros B2R]. replace (0 * micro) with 0 by ring. rewrite Rminus_0_r, Rabs_R0, round_0 by typeclasses eauto. split; [lra|]. destruct s; reflexivity.
  - cbn [micros]. destruct (fraction_of m e) as [n d] eqn:Ef. destruct (written_lf s m e B n d Ef) as (_ & _ & Ex & _ & _ & S & A1 & A2 & _).
    rewrite Ex, A2. destruct s; cbn [with_sign]; [|auto].
    rewrite opp_IZR. replace (- IZR (scaled (-6) n d) * micro - - (IZR n / IZR d)) with (- (IZR (scaled (-6) n d) * micro - IZR n / IZR d)) by ring.
    rewrite Rabs_Ropp. replace (- IZR (scaled (-6) n d) * micro) with (- (IZR (scaled (-6) n d) * micro)) by ring. auto.
Qed.

Lemma micros_cases (x : b64) : is_finite x = true -> (B2R x = 0 /\ micros x = 0%Z) \/
  exists s n d, (0 < n)%Z /\ (0 < d)%Z /\ 0 < IZR n / IZR d /\ B2R x = with_sign s (IZR n / IZR d) /\ (0 <= scaled (-6) n d)%Z /\
    micros x = if s then (- scaled (-6) n d)%Z else scaled (-6) n d.
Proof.
  intros Fx. destruct x as [s|s| |s m e B]; try discriminate; [now left|right].
  destruct (fraction_of m e) as [n d] eqn:Ef. destruct (written_lf s m e B n d Ef) as (_ & P & Ex & Hn & Hd & _).
  exists s, n, d. repeat (split; [assumption|]). split; [apply Rdiv_lt_0_compat; now apply IZR_lt|]. split; [exact Ex|]. split; [exact P|].
  cbn [micros]. now rewrite Ef.
Qed.

Lemma scaled_le k n d n' d' : (0 < d)%Z -> (0 < d')%Z -> IZR n / IZR d <= IZR n' / IZR d' -> (scaled k n d <= scaled k n' d')%Z.
Proof.
  intros Hd Hd' H. destruct (scaled_as k n d Hd) as (n1 & d1 & P1 & -> & Q1). destruct (scaled_as k n' d' Hd') as (n2 & d2 & P2 & -> & Q2).
  apply round_half_even_le; auto. rewrite Q1, Q2. apply Rmult_le_compat_r; [apply bpow_ge_0|exact H].
Qed.

Lemma micros_le (x y : b64) : is_finite x = true -> is_finite y = true -> B2R x <= B2R y -> (micros x <= micros y)%Z.
Proof.
  intros Fx Fy H. destruct (micros_cases x Fx) as [[X1 X2]|(s & n & d & Hn & Hd & Q & X1 & P & X2)];
  destruct (micros_cases y Fy) as [[Y1 Y2]|(s' & n' & d' & Hn' & Hd' & Q' & Y1 & P' & Y2)]; rewrite X1, Y1 in H; rewrite X2, Y2.
  - lia.
  - destruct s'; cbn [with_sign] in H; [lra|lia].
  - destruct s; cbn [with_sign] in H; [lia|lra].
  - destruct s, s'; cbn [with_sign] in H; try lra; try lia.
    + pose proof (scaled_le (-6) n' d' n d Hd' Hd ltac:(lra)). lia.
    + exact (scaled_le (-6) n d n' d' Hd Hd' H).
Qed.

(** The order of numbers is preserved. *)
Theorem C104_order : forall x y : b64, is_finite x = true -> is_finite y = true -> B2R x <= B2R y ->
  B2R (atof (show_lf x)) <= B2R (atof (show_lf y)).
Proof.
  intros x y Fx Fy H. rewrite (proj2 (micros_spec x Fx)), (proj2 (micros_spec y Fy)).
  apply round_le; [exact (fexp_correct 53 1024 eq_refl)|typeclasses eauto|]. apply Rmult_le_compat_r; [lra|]. apply IZR_le. now apply micros_le.
Qed.

(** Times more than 1/1000000 apart stay apart, up to 2^32 (the year 2106 in seconds since 1970). *)
Theorem C104_distinct : forall x y : b64, is_finite x = true -> is_finite y = true ->
  Rabs (B2R x) < bpow radix2 32 -> Rabs (B2R y) < bpow radix2 32 -> B2R x + micro < B2R y ->
  B2R (atof (show_lf x)) < B2R (atof (show_lf y)).
Proof.
  intros x y Fx Fy Bx By H. destruct (C104_order x y Fx Fy) as [L|E]; [lra|exact L|exfalso].
  destruct (micros_spec x Fx) as [Sx Vx]. destruct (micros_spec y Fy) as [Sy Vy]. rewrite Vx, Vy in E.
  assert (Bd : forall z (b : b64), Rabs (IZR z * micro - B2R b) <= / 2 * micro -> Rabs (B2R b) < bpow radix2 32 -> (Z.abs z < 2 ^ 52)%Z).
  { intros z b Hz Hb. apply lt_IZR. rewrite abs_IZR. change (IZR (2 ^ 52)) with (IZR 4503599627370496). change (bpow radix2 32) with 4294967296 in Hb.
    apply Rabs_le_inv in Hz. apply Rabs_lt_inv in Hb. apply Rabs_lt. lra. }
  pose proof (micro_near _ _ (Bd _ x Sx Bx) eq_refl) as Nx. pose proof (micro_near _ _ (Bd _ y Sy By) eq_refl) as Ny.
  rewrite <- E in Ny. apply Rabs_lt_inv in Nx. apply Rabs_lt_inv in Ny. apply Rabs_le_inv in Sx. apply Rabs_le_inv in Sy.
  assert (X : IZR (micros y) < IZR (micros x) + 1) by lra. rewrite <- plus_IZR in X. apply lt_IZR in X.
  assert (Y : IZR (micros x) < IZR (micros y)) by lra. apply lt_IZR in Y. lia.
Qed.

(** Positive numbers that round to the same multiple of 1/1000000 become the same number. *)
Theorem C104_same_text : forall (x y : b64) m, is_finite x = true -> is_finite y = true -> (0 < m)%Z ->
  Rabs (B2R x - IZR m * micro) < / 2 * micro -> Rabs (B2R y - IZR m * micro) < / 2 * micro -> show_lf x = show_lf y.
Proof.
  intros x y m Fx Fy Hm Hx Hy.
  assert (W : forall b : b64, is_finite b = true -> Rabs (B2R b - IZR m * micro) < / 2 * micro -> show_lf b = fixed_text m).
  { intros b Fb Hb. assert (M : 1 <= IZR m) by (apply IZR_le; lia). apply Rabs_lt_inv in Hb as Hb'. assert (Pb : 0 < B2R b) by lra.
    destruct b as [s|s| |s mb eb B]; try discriminate; [cbn [B2R] in Pb; lra|].
    destruct (fraction_of mb eb) as [n d] eqn:Ef. destruct (written_lf s mb eb B n d Ef) as (T & _ & Ex & Hn & Hd & _).
    rewrite Rabs_minus_sym in Hb. destruct (signed_scaled s mb eb B n d m Ef Hb) as [_ E]. rewrite T, E, Z.abs_eq by lia.
    assert (Q : 0 < IZR n / IZR d) by (apply Rdiv_lt_0_compat; now apply IZR_lt). rewrite Ex in Pb. destruct s; cbn [with_sign] in Pb; [lra|reflexivity]. }
  now rewrite (W x), (W y).
Qed.

(** ** The file *)

Lemma harmless_word t : harmless t -> ~ In " "%char t /\ ~ In newline t.
Proof.
  intros H. unfold harmless in H. rewrite Forall_forall in H. split; intros X; apply H in X; cbn in X;
    repeat (destruct X as [X|X]; [discriminate X|]); exact X.
Qed.

Lemma getlines_line l r : forall cur, ~ In newline l -> getlines newline cur (l ++ newline :: r) = (rev cur ++ l) :: getlines newline [] r.
Proof.
  induction l as [|a l IH]; intros cur H; cbn [app getlines].
  - rewrite Ascii.eqb_refl, app_nil_r. reflexivity.
  - destruct (Ascii.eqb_spec a newline) as [->|_]; [exfalso; apply H; now left|].
    rewrite IH by (intros X; apply H; now right). cbn [rev]. now rewrite <- app_assoc.
Qed.

Lemma fields_word w r : forall cur, ~ In " "%char w -> rev cur ++ w <> [] ->
  fields cur (w ++ " "%char :: r) = (rev cur ++ w) :: fields [] r.
Proof.
  induction w as [|a w IH]; intros cur Hs Hn; cbn [app fields].
  - rewrite Ascii.eqb_refl. rewrite app_nil_r in *. destruct cur; [now elim Hn|reflexivity].
  - destruct (Ascii.eqb_spec a " "%char) as [->|_]; [exfalso; apply Hs; now left|].
    assert (E : rev cur ++ a :: w = rev (a :: cur) ++ w) by (cbn [rev]; now rewrite <- app_assoc). rewrite E in *.
    apply IH; [intros X; apply Hs; now right|exact Hn].
Qed.

(** A line without its end. *)
Definition row_text (xs : list b64) : text := concat (map (fun x => show_lf x ++ [" "%char]) xs).

Lemma row_fields xs : fields [] (row_text xs) = map show_lf xs.
Proof.
  induction xs as [|x xs IH]; [reflexivity|]. unfold row_text. cbn [map concat]. rewrite <- app_assoc. cbn [app].
  destruct (show_lf_harmless x) as [A B]. rewrite fields_word; [|now apply harmless_word|exact B]. cbn [rev app]. f_equal. exact IH.
Qed.

Lemma row_newline xs : ~ In newline (row_text xs).
Proof.
  unfold row_text. intros H. apply in_concat in H as (l & Hl & H). apply in_map_iff in Hl as (x & <- & _). apply in_app_or in H as [H|H].
  - now apply harmless_word in H; [|apply show_lf_harmless].
  - destruct H as [H|[]]. discriminate H.
Qed.

(** The rows read from a file of rows of 14 numbers. *)
Lemma read_rows rows : Forall (fun xs => length xs = 14%nat) rows ->
  matlab_read (export_header ++ lines show_lf rows) = Some (map (map (fun x => atof (show_lf x))) rows).
Proof.
  intros H. unfold matlab_read. assert (Hh : exists h, export_header = h ++ [newline] /\ ~ In newline h).
  { eexists. split; [reflexivity|]. cbn. intros X. repeat (destruct X as [X|X]; [discriminate X|]). exact X. }
  destruct Hh as (h & -> & Hh). rewrite <- app_assoc. cbn [app]. rewrite getlines_line by exact Hh. cbn [tl].
  induction H as [|xs rows Hx H IH]; [reflexivity|].
  assert (E : lines show_lf (xs :: rows) = row_text xs ++ newline :: lines show_lf rows).
  { unfold lines, line, row_text. cbn [map concat]. rewrite <- !app_assoc. reflexivity. }
  rewrite E, getlines_line by apply row_newline. cbn [rev app scan_lines map]. rewrite IH. unfold scan_line. rewrite row_fields.
  rewrite firstn_all2 by (rewrite map_length; lia). rewrite map_length, Hx, Nat.eqb_refl, map_map. reflexivity.
Qed.

(** The rows written by a loop that ended. *)
Lemma loop_rows row tmax dt : forall fuel (t : b64) file file' b,
  sample_loop show_lf row tmax dt fuel t file = Ended (Ok (file', b)) ->
  exists rows, file' = file ++ lines show_lf rows /\ forall i xs, nth_error rows i = Some xs -> row (visited t dt i) = Ok (Some xs).
Proof.
  induction fuel as [|fuel IH]; intros t file file' b H; [discriminate|]. cbn [sample_loop] in H.
  assert (Z : file' = file -> exists rows, file' = file ++ lines show_lf rows /\ forall i xs, nth_error rows i = Some xs -> row (visited t dt i) = Ok (Some xs)).
  { intros ->. exists []. split; [symmetry; apply app_nil_r|]. intros [] xs; discriminate. }
  destruct (nltb t tmax); [|apply Z; congruence]. destruct (row t) as [[xs|]| | |] eqn:Er; try discriminate; [|apply Z; congruence].
  apply IH in H as (rows & -> & Hr). exists (xs :: rows). split.
  - rewrite print_row_line, <- app_assoc. reflexivity.
  - intros [|i] ys E; [cbn in E; now inversion E; subst|]. rewrite visited_succ. now apply Hr.
Qed.

(** The numbers of one sample. *)
Definition sample (t : b64) (p : pose b64) (v : twist b64) : list b64 :=
  [t; vx (p_pos p); vy (p_pos p); vz (p_pos p); qw (p_rot p); qx (p_rot p); qy (p_rot p); qz (p_rot p);
   vx (t_lin v); vy (t_lin v); vz (t_lin v); vx (t_ang v); vy (t_ang v); vz (t_ang v)].

(** The script reads every file that the export of an SE3 curve produced, also one that the export broke off: the rows are the
    samples, in order, and every number is that of the curve up to 1/1000000. *)
Theorem C104_script : forall K (c : se3_curve b64) n fuel file b, se3_write_eval show_lf K c n fuel = Ended (Ok (file, b)) ->
  exists table, matlab_read file = Some table /\
    forall i row, nth_error table i = Some row ->
    let dt := ndiv (nsub (se3_max_time c) (se3_min_time c)) (nofZ (n - 1)) in
    let t := visited (se3_min_time c) dt i in
    exists p v, se3_evaluate K c t = Ok (Some p) /\ se3_evaluate_derivative K c t 1 = Ok (Some v) /\ Forall2 kept6 (sample t p v) row.
Proof.
  intros K c n fuel file b H. unfold se3_write_eval, export in H. destruct (Z.eqb n int_min); [discriminate|].
  apply loop_rows in H as (rows & -> & Hr).
  assert (Hs : forall i xs, nth_error rows i = Some xs -> exists p v, let t := visited (se3_min_time c) (ndiv (nsub (se3_max_time c) (se3_min_time c)) (nofZ (n - 1))) i in
    se3_evaluate K c t = Ok (Some p) /\ se3_evaluate_derivative K c t 1 = Ok (Some v) /\ xs = sample t p v).
  { intros i xs Hi. apply Hr in Hi. apply sample_row_inv in Hi as (p & v & E1 & E2 & ->). exists p, v. auto. }
  assert (L : Forall (fun xs => length xs = 14%nat) rows).
  { apply Forall_forall. intros xs Hin. apply In_nth_error in Hin as [i Hi]. apply Hs in Hi as (p & v & _ & _ & ->). reflexivity. }
  eexists. split; [now apply read_rows|]. intros i row Hi dt t. rewrite nth_error_map in Hi. destruct (nth_error rows i) as [xs|] eqn:Ei; [|discriminate].
  apply Hs in Ei as (p & v & E1 & E2 & ->). exists p, v. split; [exact E1|]. split; [exact E2|]. cbn [option_map] in Hi.
  assert (A : forall l, Some (map (fun x => atof (show_lf x)) l) = Some row -> Forall2 kept6 l row).
  { intros l E. assert (E' : map (fun x => atof (show_lf x)) l = row) by congruence. rewrite <- E'. clear.
    induction l as [|x l IH]; [constructor|]. cbn [map]. constructor; [apply C104_kept|exact IH]. }
  apply A. exact Hi.
Qed.

(** If the first two times round to the same multiple of 1/1000000, the script computes the step 0
    and none of its difference quotients is finite. *)
Theorem C104_step_lost : forall (t1 t2 : b64) m xs1 xs2 rows i, is_finite t1 = true -> is_finite t2 = true -> (0 < m)%Z ->
  Rabs (B2R t1 - IZR m * micro) < / 2 * micro -> Rabs (B2R t2 - IZR m * micro) < / 2 * micro ->
  Forall (fun xs => length xs = 14%nat) ((t1 :: xs1) :: (t2 :: xs2) :: rows) ->
  exists table q, matlab_read (export_header ++ lines show_lf ((t1 :: xs1) :: (t2 :: xs2) :: rows)) = Some table /\
    (exists dt, matlab_step table = Some dt /\ B2R dt = 0 /\ is_finite dt = true) /\
    difference_quotients i table = Some q /\ Forall (fun x => is_finite x = false) q /\ length q = Datatypes.S (length rows).
Proof.
  intros t1 t2 m xs1 xs2 rows i F1 F2 Hm H1 H2 HL. rewrite read_rows by exact HL. eexists. eexists. split; [reflexivity|].
  cbn [map]. unfold difference_quotients, matlab_step, column. cbn [map nth]. rewrite (C104_same_text t1 t2 m F1 F2 Hm H1 H2).
  set (y := atof (show_lf t2)). assert (Fy : is_finite y = true).
  { pose proof (C104_kept t2) as K. unfold kept6 in K. rewrite F2 in K. apply K. }
  assert (Hd : B2R (nsub y y) = 0 /\ is_finite (nsub y y) = true).
  { pose proof (Bminus_correct 53 1024 prec_gt_0_53 prec_lt_emax_53 mode_NE y y Fy Fy) as C. cbn [round_mode] in C.
    rewrite Rminus_diag_eq, round_0, Rabs_R0, Rlt_bool_true in C by first [reflexivity|typeclasses eauto|apply bpow_gt_0].
    destruct C as (C1 & C2 & _). exact (conj C1 C2). }
  split; [exists (nsub y y); tauto|]. cbn [option_map]. split; [reflexivity|]. split.
  - apply Forall_forall. intros x Hx. apply in_map_iff in Hx as (d & <- & _). destruct Hd as [Z F].
    destruct (nsub y y) as [s|s| |s me e B] eqn:Ed; try discriminate.
    + fold y. rewrite Ed. generalize (nmul d (nofZ 1 : b64)). intros [sa|sa| |sa ma ea Ba]; reflexivity.
    + exfalso. cbn [B2R] in Z. apply eq_0_F2R in Z. destruct s; discriminate.
  - rewrite map_length. cbn [map].
    assert (D : forall l, length (diff l) = Nat.pred (length l)).
    { induction l as [|a [|b l] IH]; try reflexivity. cbn [diff length Nat.pred] in *. now rewrite IH. }
    rewrite D. cbn [length Nat.pred]. now rewrite !map_length.
Qed.

(** ** Examples *)

Example C104_example :
  show_lf (ndiv (nofZ 1) (nofZ 3)) = list_ascii_of_string "0.333333" /\
  show_lf (nofZ (-5)) = list_ascii_of_string "-5.000000" /\
  show_lf (ndiv (nofZ (-1)) (nofZ 4000000)) = list_ascii_of_string "-0.000000" /\
  atof (show_lf (ndiv (nofZ (-1)) (nofZ 4000000))) = B754_zero true /\
  atof (show_lf (ndiv (nofZ 14000000001) (nofZ 10))) = ndiv (nofZ 14000000001) (nofZ 10).
Proof.
  split; [vm_compute; reflexivity|]. split; [vm_compute; reflexivity|]. split; [vm_compute; reflexivity|].
  split; apply B2SF_inj; vm_compute; reflexivity.
Qed.

(** Two poses without rotation, one second apart. *)
Definition example_curve : se3_curve b64 :=
  let K := Kindr (fun _ => qone) (fun _ => vzero) in
  match se3_fit K 0 se3_new [nofZ 0; nofZ 1 : b64] [Pose vzero qone; Pose (V3 (nofZ 1) (nofZ 2) (nofZ (-3))) qone] [] with
  | Ok r => snd (fst r)
  | _ => se3_new
  end.

Example C104_script_example :
  se3_write_eval show_lf (Kindr (fun _ => qone) (fun _ => vzero)) example_curve 3 5 = Ended (Ok (export_header ++ list_ascii_of_string
    "0.000000 0.000000 0.000000 0.000000 1.000000 0.000000 0.000000 0.000000 0.000000 0.000000 0.000000 0.000000 0.000000 0.000000 " ++ newline :: list_ascii_of_string
    "0.500000 0.500000 1.000000 -1.500000 1.000000 0.000000 0.000000 0.000000 1.500000 3.000000 -4.500000 0.000000 0.000000 0.000000 " ++ [newline], true)).
Proof. vm_compute. reflexivity. Qed.

(** Two times 2^-22 apart. *)
Example C104_step_lost_example : exists t1 t2 : b64, is_finite t1 = true /\ is_finite t2 = true /\ B2R t1 < B2R t2 /\
  Rabs (B2R t1 - 16000000 * micro) < / 2 * micro /\ Rabs (B2R t2 - 16000000 * micro) < / 2 * micro.
Proof.
  exists (nofZ 16), (ndiv (nofZ (16 * 2 ^ 22 + 1)) (nofZ (2 ^ 22))).
  destruct (val_int 16 ltac:(lia)) as [F1 E1].
  assert (F2 : is_finite (ndiv (nofZ (16 * 2 ^ 22 + 1)) (nofZ (2 ^ 22)) : b64) = true) by (vm_compute; reflexivity).
  assert (E2 : B2R (ndiv (nofZ (16 * 2 ^ 22 + 1)) (nofZ (2 ^ 22)) : b64) = 16 + / 4194304).
  { assert (X : B2SF (ndiv (nofZ (16 * 2 ^ 22 + 1)) (nofZ (2 ^ 22)) : b64) = SpecFloat.S754_finite false 4503599694479360 (-48)) by (vm_compute; reflexivity).
    rewrite <- SF2R_B2SF, X. unfold SF2R, F2R. cbn [Fnum Fexp cond_Zopp]. change (bpow radix2 (-48)) with (/ 281474976710656). lra. }
  split; [exact F1|]. split; [exact F2|]. rewrite E1, E2. split; [lra|]. split; apply Rabs_lt; lra.
Qed.

(** Without the distance of 1/1000000 the statement of [C104_distinct] is false. *)
Theorem C104_distinct_refuted : ~ (forall x y : b64, is_finite x = true -> is_finite y = true -> B2R x < B2R y ->
  B2R (atof (show_lf x)) < B2R (atof (show_lf y))).
Proof.
  intros H. destruct C104_step_lost_example as (t1 & t2 & F1 & F2 & L & H1 & H2).
  specialize (H t1 t2 F1 F2 L). rewrite (C104_same_text t1 t2 16000000 F1 F2 ltac:(lia) H1 H2) in H. lra.
Qed.

(** ** Spacing *)

(** A line of words: [lead] spaces, every word followed by one or more spaces, the last one by any number. *)
Definition spaces (n : nat) : text := repeat " "%char n.
Definition spaced (lead : nat) (ws : list (text * nat)) (last : text) (tail : nat) : text :=
  spaces lead ++ concat (map (fun wn => fst wn ++ spaces (S (snd wn))) ws) ++ last ++ spaces tail.
Definition word (w : text) : Prop := w <> [] /\ ~ In " "%char w.

Lemma fields_spaces n r : fields [] (spaces n ++ r) = fields [] r.
Proof. induction n as [|n IH]; [reflexivity|exact IH]. Qed.

Lemma fields_last w : forall cur, ~ In " "%char w -> rev cur ++ w <> [] -> fields cur w = [rev cur ++ w].
Proof.
  induction w as [|a w IH]; intros cur Hs Hn.
  - rewrite app_nil_r in *. cbn [fields]. destruct cur; [contradiction|reflexivity].
  - cbn [fields]. destruct (Ascii.eqb_spec a " "%char) as [->|_]; [exfalso; apply Hs; now left|].
    rewrite IH; cbn [rev]; rewrite <- ?app_assoc; cbn [app]; auto. intros X. apply Hs. now right.
Qed.

(** The script reads the first 14 words of a line however they are spaced, and no line of fewer words. *)
Theorem C104_spacing : forall lead ws last tail, Forall word (map fst ws) -> word last ->
  scan_line (spaced lead ws last tail) =
    if Nat.leb 14 (S (length ws)) then Some (map atof (firstn 14 (map fst ws ++ [last]))) else None.
Proof.
  intros lead ws last tail Hw [Hl Hs].
  assert (E : fields [] (spaced lead ws last tail) = map fst ws ++ [last]).
  { unfold spaced. rewrite fields_spaces. induction ws as [|[w n] ws IH]; cbn [map concat app fst snd] in *.
    - destruct tail as [|tail].
      + unfold spaces. cbn [repeat]. rewrite app_nil_r. now apply (fields_last last []).
      + change (spaces (S tail)) with (" "%char :: spaces tail). rewrite fields_word by assumption. cbn [rev app]. f_equal.
        rewrite <- (app_nil_r (spaces tail)), fields_spaces. reflexivity.
    - apply Forall_cons_iff in Hw as [[Hn Hi] Hw]. rewrite <- !app_assoc. change (spaces (S n)) with (" "%char :: spaces n).
      cbn [app]. rewrite fields_word by assumption. cbn [rev app]. f_equal. rewrite fields_spaces. apply IH, Hw. }
  unfold scan_line. rewrite E, firstn_length, app_length, map_length. cbn [length].
  rewrite Nat.add_1_r. destruct (Nat.leb_spec 14 (S (length ws))) as [L|L].
  - now rewrite Nat.min_l by exact L.
  - rewrite Nat.min_r by lia. destruct (Nat.eqb_spec (S (length ws)) 14); [lia|reflexivity].
Qed.

Example C104_spacing_example : let w := ["1"; "."; "5"]%char in word w /\
  spaced 2 [(w, 1%nat)] w 1 = [" "; " "; "1"; "."; "5"; " "; " "; "1"; "."; "5"; " "]%char.
Proof. split; [split; [discriminate|intros [|[|[|[]]]]; discriminate]|reflexivity]. Qed.
