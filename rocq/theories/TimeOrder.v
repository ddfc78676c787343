(** * Times as a strict weak order

    [Time] is [double] (/repo/curves/include/curves/Curve.hpp: [typedef double Time]).
    The coefficient manager only compares times, so its model is written over
    any type with a comparison [tlt] (C++ [operator<]) and a zero.  The laws
    needed are those std::map requires of its comparator, i.e. a strict weak
    order; doubles satisfy them when NaN is excluded (see [TimeB64.v]).  NaN as a time of
    a coefficient is excluded; it may be the time of a query ([tnum]). *)

From Coq Require Import Bool List.

(** [Time] is [double] (/repo/curves/include/curves/Curve.hpp); what the manager uses of it. *)
Class TimeOps (T : Type) := {
  tlt : T -> T -> bool;      (** C++ [a < b] *)
  tnum : T -> bool;          (** not a NaN *)
  tzero : T                  (** the literal 0 returned for empty curves *)
}.

(** C++ [a <= b]: false if one of them is NaN.
    LocalSupport2CoefficientManager-inl.hpp lines 92 and 103. *)
Definition tle {T} `{TimeOps T} (a b : T) : bool := tnum a && tnum b && negb (tlt b a).
(** The equivalence std::map uses in place of equality.
    LocalSupport2CoefficientManager-inl.hpp lines 208 and 217. *)
Definition tequiv {T} `{TimeOps T} (a b : T) : bool := negb (tlt a b) && negb (tlt b a).
(** C++ [a == b]: false if one of them is NaN.
    LocalSupport2CoefficientManager-inl.hpp lines 91, 155, 158 and 268. *)
Definition teq {T} `{TimeOps T} (a b : T) : bool := tnum a && tnum b && tequiv a b.

(** The comparator of std::map is a strict weak order.
    LocalSupport2CoefficientManager.hpp line 47. *)
Class TimeLaws (T : Type) `{TimeOps T} : Prop := {
  tnum_all : forall a, tnum a = true;
  tlt_irrefl : forall a, tlt a a = false;
  tlt_trans : forall a b c, tlt a b = true -> tlt b c = true -> tlt a c = true;
  tlt_cotrans : forall a b c, tlt a b = true -> tlt a c = true \/ tlt c b = true
}.

Section Facts.
Context {T : Type} `{TimeLaws T}.
Implicit Types a b c : T.

Lemma tle_def a b : tle a b = negb (tlt b a).
Proof. unfold tle. now rewrite !tnum_all. Qed.

Lemma tequiv_teq a b : tequiv a b = teq a b.
Proof. unfold teq. now rewrite !tnum_all. Qed.

Lemma teq_def a b : teq a b = negb (tlt a b) && negb (tlt b a).
Proof. symmetry. apply tequiv_teq. Qed.

Lemma tlt_asym a b : tlt a b = true -> tlt b a = false.
Proof.
  intros Hab. destruct (tlt b a) eqn:E; [|reflexivity].
  rewrite <- (tlt_irrefl a). symmetry. eapply tlt_trans; eauto.
Qed.

Lemma teq_refl a : teq a a = true.
Proof. rewrite ?teq_def. now rewrite tlt_irrefl. Qed.

Lemma teq_sym a b : teq a b = teq b a.
Proof. rewrite ?teq_def. apply andb_comm. Qed.

Lemma teq_spec a b : teq a b = true <-> tlt a b = false /\ tlt b a = false.
Proof.
  rewrite ?teq_def. rewrite andb_true_iff, !negb_true_iff. tauto.
Qed.

Lemma teq_false a b : teq a b = false <-> tlt a b = true \/ tlt b a = true.
Proof.
  rewrite ?teq_def. rewrite andb_false_iff, !negb_false_iff. tauto.
Qed.

Lemma tlt_teq_l a b c : teq a b = true -> tlt a c = tlt b c.
Proof.
  intros E. apply teq_spec in E as [E1 E2].
  destruct (tlt a c) eqn:Hac, (tlt b c) eqn:Hbc; try reflexivity.
  - destruct (tlt_cotrans _ _ b Hac) as [Hx|Hx]; congruence.
  - destruct (tlt_cotrans _ _ a Hbc) as [Hx|Hx]; congruence.
Qed.

Lemma tlt_teq_r a b c : teq a b = true -> tlt c a = tlt c b.
Proof.
  intros E. apply teq_spec in E as [E1 E2].
  destruct (tlt c a) eqn:Hac, (tlt c b) eqn:Hbc; try reflexivity.
  - destruct (tlt_cotrans _ _ b Hac) as [Hx|Hx]; congruence.
  - destruct (tlt_cotrans _ _ a Hbc) as [Hx|Hx]; congruence.
Qed.

Lemma teq_trans a b c : teq a b = true -> teq b c = true -> teq a c = true.
Proof.
  intros E1 E2. apply teq_spec.
  rewrite (tlt_teq_l _ _ c E1), (tlt_teq_r _ _ c E1). apply teq_spec. exact E2.
Qed.

Lemma teq_cong a b c : teq a b = true -> teq a c = teq b c.
Proof.
  intros E. rewrite ?teq_def. now rewrite (tlt_teq_l _ _ c E), (tlt_teq_r _ _ c E).
Qed.

Lemma tle_lt_trans a b c : tle a b = true -> tlt b c = true -> tlt a c = true.
Proof.
  rewrite ?tle_def. rewrite negb_true_iff. intros Hab Hbc.
  destruct (tlt_cotrans _ _ a Hbc) as [Hx|Hx]; congruence.
Qed.

Lemma tlt_le_trans a b c : tlt a b = true -> tle b c = true -> tlt a c = true.
Proof.
  rewrite ?tle_def. rewrite negb_true_iff. intros Hab Hbc.
  destruct (tlt_cotrans _ _ c Hab) as [Hx|Hx]; congruence.
Qed.

Lemma tlt_le a b : tlt a b = true -> tle a b = true.
Proof. rewrite ?tle_def. intros E. now rewrite tlt_asym. Qed.

Lemma tle_refl a : tle a a = true.
Proof. rewrite ?tle_def. now rewrite tlt_irrefl. Qed.

Lemma tle_trans a b c : tle a b = true -> tle b c = true -> tle a c = true.
Proof.
  intros H1 H2. rewrite ?tle_def. rewrite negb_true_iff.
  destruct (tlt c a) eqn:E; [|reflexivity].
  pose proof (tlt_le_trans _ _ _ E H1) as X.
  rewrite tle_def in H2. rewrite negb_true_iff in H2. congruence.
Qed.

Lemma tle_teq_l a b c : teq a b = true -> tle a c = tle b c.
Proof. intros E. rewrite ?tle_def. now rewrite (tlt_teq_r _ _ c E). Qed.

Lemma tle_teq_r a b c : teq a b = true -> tle c a = tle c b.
Proof. intros E. rewrite ?tle_def. now rewrite (tlt_teq_l _ _ c E). Qed.

Lemma tlt_not_teq a b : tlt a b = true -> teq a b = false.
Proof. intros E. apply teq_false. auto. Qed.

Lemma teq_tle a b : teq a b = true -> tle a b = true.
Proof. intros E. apply teq_spec in E as [E1 E2]. rewrite ?tle_def. now rewrite E2. Qed.

Lemma tle_antisym a b : tle a b = true -> tle b a = true -> teq a b = true.
Proof.
  rewrite ?tle_def, ?teq_def. rewrite !negb_true_iff. intros E1 E2. now rewrite E1, E2.
Qed.

Lemma tle_cases a b : tle a b = true -> tlt a b = true \/ teq a b = true.
Proof.
  rewrite ?tle_def, ?teq_def. rewrite negb_true_iff. intros ->.
  destruct (tlt a b); auto.
Qed.
End Facts.
