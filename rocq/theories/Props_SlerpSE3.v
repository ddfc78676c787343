(** * C81-C86: slerp curves without values, saved and printed curves, parts of the base
      curve, the sampling period *)

From Coquelicot Require Import Coquelicot.
From Coq Require Import String Ascii.
From Coq Require Import List Reals Lra Lia Bool Arith NArith ZArith Permutation Sorting.Sorted.
From Verif Require Import Base TimeOrder TimeInst KeyGen Manager ManagerSpec ManagerProofs ManagerProofs2
  ManagerProofs3 Props_Manager Num Sampling SamplingSpec SamplingProofs HermiteE3Proofs Discrete DiscreteSpec
  DiscreteProofs Props_Discrete Composition CompositionProofs Props_Composition Csv Props_Csv SlerpSE3.
Import ListNotations.
Local Open Scope R_scope.

(** ** C81: SlerpSE3Curve cannot be evaluated, and what follows *)

Section Slerp.
Context {S : Type} `{Num S} `{TimeOps S} {V : Type} `{GroupOps V}.
Local Notation curve := (@slerp_curve S V).
Local Notation comp := (comp S V).

(** transformCurve leaves an empty curve and aborts on any other. *)
Theorem C81_transform : forall g (c : curve) (T : V),
  (size (s_mgr c) = 0%nat -> curve_transform slerp_evaluate g c T = Ok (g, c)) /\
  ((1 <= size (s_mgr c))%nat -> curve_transform slerp_evaluate g c T = Abort).
Proof.
  intros g c T. unfold curve_transform, size, get_times. destruct (nodes (s_mgr c)) as [|n r]; simpl.
  - split; [reflexivity|lia].
  - split; [lia|reflexivity].
Qed.

(** Nothing can be saved. *)
Theorem C81_save : forall (show : S -> text) (nums : V -> list S) (c : curve) times,
  curve_save_at_times show nums slerp_evaluate c times = Abort /\
  curve_save show nums slerp_evaluate c = Abort.
Proof.
  intros show nums c times.
  assert (X : forall ts, curve_save_at_times show nums slerp_evaluate c ts = Abort) by (intros [|t ts]; reflexivity).
  split; apply X.
Qed.

Lemma insert_into_empty g (m : mgr S V) t v out : nodes m = [] ->
  exists g' m' out', insert_coefficients g m [t] [v] out = Ok (g', m', out').
Proof.
  intros E. unfold insert_coefficients. simpl. unfold insert_coefficient, scan_at_time. rewrite E. simpl. eauto.
Qed.

Lemma slerp_cover g (k : curve) a b :
  comp_cover slerp_evaluate g k a b = Abort \/
  exists g' k', comp_cover slerp_evaluate g k a b = Ok (g', k').
Proof.
  assert (E1 : exists g1 k1 ts1 vs1, (if empty (s_mgr k) then
      let* (g1, k1, _) := slerp_extend g k [a] [gone] [] in Ok (g1, k1, [a], [gone])
    else Ok (g, k, [], [])) = Ok (g1, k1, ts1, vs1)).
  { unfold empty. destruct (nodes (s_mgr k)) as [|n r] eqn:En; [|eauto 6].
    unfold slerp_extend. cbn [length Nat.eqb negb]. unfold empty. rewrite En. cbn [orb].
    destruct (insert_into_empty g (s_mgr k) a gone [] En) as (g' & m' & out' & ->). cbn [bind]. eauto 6. }
  destruct E1 as (g1 & k1 & ts1 & vs1 & E1). unfold comp_cover. rewrite E1. cbn [bind].
  destruct (nltb (max_time (s_mgr k1)) b); [now left|]. cbn [bind].
  destruct (nltb a (min_time (s_mgr k1))); [now left|]. right. eauto.
Qed.

(** A composition curve whose correction is a SlerpSE3Curve aborts on every extend and
    fitCurve: nothing can be put in this way. *)
Theorem C81_composition : forall g (c : comp) ts vs out,
  comp_extend slerp_evaluate g c ts vs out = Abort /\
  comp_fit slerp_evaluate g c ts vs out = Abort.
Proof.
  intros g c ts vs out.
  assert (X : comp_extend slerp_evaluate g c ts vs out = Abort); [|split; exact X].
  destruct ts as [|t [|? ?]]; try reflexivity; destruct vs as [|v [|? ?]]; try reflexivity.
  unfold comp_extend. cbn zeta.
  match goal with |- context [comp_cover _ ?g ?k ?a ?b] =>
    destruct (slerp_cover g k a b) as [->|(g' & k' & ->)]; reflexivity end.
Qed.

(** Nor can such a composition be evaluated, have its corrections folded in or resampled,
    or, with slerp curves for both parts, be transformed or saved. *)
Theorem C81_composition_unusable : forall (eb : curve -> S -> outcome V) g (c : comp) t T ts
    (show : S -> text) (nums : V -> list S),
  comp_evaluate eb slerp_evaluate c t = Abort /\
  ((1 <= size (s_mgr (c_base c)))%nat -> comp_fold eb slerp_evaluate g c = Abort) /\
  (ts <> [] -> comp_set_correction_times slerp_evaluate g c ts = Abort) /\
  ((1 <= size (s_mgr (c_base c)))%nat -> comp_transform slerp_evaluate g c T = Abort) /\
  comp_save show nums eb slerp_evaluate c = Abort.
Proof.
  intros eb g c t T ts show nums. split; [reflexivity|]. split; [|split; [|split]].
  - unfold comp_fold, size, get_times. destruct (nodes (s_mgr (c_base c))) as [|n r]; simpl; [lia|reflexivity].
  - unfold comp_set_correction_times. destruct ts as [|t0 r]; [congruence|reflexivity].
  - intros Hn. unfold comp_transform. now rewrite (proj2 (C81_transform g (c_base c) T) Hn).
  - unfold comp_save, comp_save_at_times, get_times. destruct (nodes (s_mgr (c_base c))); reflexivity.
Qed.

End Slerp.

(** The factory makes such curves for two of its five names. *)
Theorem C81_factory : forall name : string,
  ((exists k, create_curve name = Ok k) <->
     In name ["slerp_curve"; "discrete_curve"; "composition_curve"; "discrete_composition_curve";
              "semi_discrete_composition_curve"]%string) /\
  ((create_curve name = Ok MadeSlerp \/ create_curve name = Ok MadeSlerpComposition) <->
     In name ["slerp_curve"; "composition_curve"]%string) /\
  ((forall k, create_curve name <> Ok k) -> create_curve name = Abort).
Proof.
  intros name. unfold create_curve.
  destruct (String.eqb_spec name "slerp_curve") as [->|N1].
  { repeat split; intros; simpl; eauto; try discriminate. exfalso. eapply H; reflexivity. }
  destruct (String.eqb_spec name "discrete_curve") as [->|N2].
  { repeat split; intros; simpl in *; eauto; try discriminate.
    - destruct H; discriminate.
    - destruct H as [H|[H|[]]]; discriminate.
    - exfalso. eapply H; reflexivity. }
  destruct (String.eqb_spec name "composition_curve") as [->|N3].
  { repeat split; intros; simpl; eauto 6; try discriminate. exfalso. eapply H; reflexivity. }
  destruct (String.eqb_spec name "discrete_composition_curve") as [->|N4].
  { repeat split; intros; simpl in *; eauto 6; try discriminate.
    - destruct H; discriminate.
    - destruct H as [H|[H|[]]]; discriminate.
    - exfalso. eapply H; reflexivity. }
  destruct (String.eqb_spec name "semi_discrete_composition_curve") as [->|N5].
  { repeat split; intros; simpl in *; eauto 8; try discriminate.
    - destruct H; discriminate.
    - destruct H as [H|[H|[]]]; discriminate.
    - exfalso. eapply H; reflexivity. }
  repeat split; intros; simpl in *; try reflexivity.
  - destruct H; discriminate.
  - exfalso. intuition congruence.
  - destruct H; discriminate.
  - exfalso. intuition congruence.
Qed.

(** ** C82: the file written by saveCurveTimesAndValues and saveCurveAtTimes *)

(** The file with one line for each time and value. *)
Definition csv_file {V} (show : R -> text) (nums : V -> list R) (rows : list (R * V)) : text :=
  concat (map (fun tv => line_of (map show (fst tv :: nums (snd tv))) ++ [newline]) rows).

Lemma write_rows {V} (show : R -> text) (nums : V -> list R) (rows : list (R * V)) :
  (forall v, length (nums v) = 7%nat) -> rows <> [] ->
  write_time_vector_csv show (map fst rows) (map nums (map snd rows)) = Ok (csv_file show nums rows).
Proof.
  intros Hd Hn. unfold write_time_vector_csv. rewrite !map_length, Nat.eqb_refl. cbn [negb].
  destruct (Nat.ltb_spec (length rows) 1) as [X|_]; [destruct rows; [congruence|simpl in X; lia]|].
  assert (D : match map nums (map snd rows) with [] => 0%nat | v :: _ => to_unsigned (length v) end = 7%nat).
  { destruct rows; [congruence|]. simpl. rewrite Hd. reflexivity. }
  rewrite D, time_rows; [|now rewrite !map_length|].
  2:{ intros v Hv. apply in_map_iff in Hv as (p & <- & _). apply Hd. }
  cbn [bind].
  assert (M : map (fun tv => map show (fst tv :: snd tv)) (combine (map fst rows) (map nums (map snd rows))) =
     map (fun tv => map show (fst tv :: nums (snd tv))) rows).
  { clear. induction rows as [|[t v] r IH]; simpl; auto. f_equal. exact IH. }
  rewrite M, write_csv_ok.
  - unfold csv_file. now rewrite map_map.
  - destruct rows; [congruence|discriminate].
  - apply Forall_forall. intros row Hr. apply in_map_iff in Hr as (tp & <- & _). discriminate.
  - apply Forall_forall. intros row Hr. apply in_map_iff in Hr as (tp & <- & _).
    rewrite map_length. cbn [length]. rewrite Hd. reflexivity.
Qed.

Lemma write_none {V} (show : R -> text) (nums : V -> list R) (vs : list V) :
  write_time_vector_csv show [] (map nums vs) = Abort.
Proof. unfold write_time_vector_csv. destruct vs; reflexivity. Qed.

Lemma mapM_contents {V} (f : R -> outcome V) rows :
  (forall t v, In (t, v) rows -> f t = Ok v) -> mapM f (map fst rows) = Ok (map snd rows).
Proof.
  intros Hf. induction rows as [|[t v] r IH]; simpl; [reflexivity|].
  rewrite (Hf t v) by now left. cbn [bind]. rewrite IH; [reflexivity|]. intros; apply Hf; now right.
Qed.

Lemma mapM_abort {A B} (f : A -> outcome B) l x :
  (forall a, In a l -> (exists b, f a = Ok b) \/ f a = Abort) -> In x l -> f x = Abort -> mapM f l = Abort.
Proof.
  induction l as [|a l IH]; intros Hl Hx Ex; [destruct Hx|]. simpl.
  destruct (Hl a) as [(b & E)|E]; [now left| |now rewrite E].
  rewrite E. cbn [bind]. destruct Hx as [->|Hx]; [congruence|].
  rewrite IH; auto. intros; apply Hl; now right.
Qed.

Section Saved.
Context {V : Type}.
Local Notation curve := (@slerp_curve R V).
Variable mid : @middle R V.
Hypothesis Hmid : starts mid.
Variable show : R -> text.
Variable nums : V -> list R.
Hypothesis Hnums : forall v, length (nums v) = 7%nat.

(** A saved curve has one line for each coefficient, in time order; an empty curve aborts. *)
Theorem C82_saved : forall c : curve, consistent (s_mgr c) ->
  (contents (s_mgr c) = [] -> curve_save show nums (pw_evaluate mid) c = Abort) /\
  (contents (s_mgr c) <> [] ->
     curve_save show nums (pw_evaluate mid) c = Ok (csv_file show nums (contents (s_mgr c)))).
Proof.
  intros c Hc. unfold curve_save, curve_save_at_times. rewrite <- contents_times.
  rewrite mapM_contents.
  2:{ intros t v Hi. now apply pw_at. }
  cbn [bind]. split.
  - intros ->. reflexivity.
  - intros Hn. now apply write_rows.
Qed.

(** At chosen times the file has the curve's values; without times, or with a time outside
    the range, it aborts. *)
Theorem C82_saved_at_times : forall (c : curve) times, consistent (s_mgr c) -> contents (s_mgr c) <> [] ->
  (times <> [] -> (forall t, In t times -> min_time (s_mgr c) <= t <= max_time (s_mgr c)) ->
   exists rows, map fst rows = times /\ (forall t v, In (t, v) rows -> pw_evaluate mid c t = Ok v) /\
     curve_save_at_times show nums (pw_evaluate mid) c times = Ok (csv_file show nums rows)) /\
  ((times = [] \/ exists t, In t times /\ ~ min_time (s_mgr c) <= t <= max_time (s_mgr c)) ->
   curve_save_at_times show nums (pw_evaluate mid) c times = Abort).
Proof.
  intros c times Hc Hn. split.
  - intros Hts Hin.
    destruct (mapM_total (pw_evaluate mid c) times) as (vs & E).
    { intros t Ht. destruct (pw_defined mid c t Hmid Hc Hn (Hin t Ht)) as (v & Ev). eauto. }
    apply mapM_ok in E as F. exists (combine times vs).
    assert (Hfst : map fst (combine times vs) = times).
    { clear - F. induction F; simpl; congruence. }
    assert (Hsnd : map snd (combine times vs) = vs).
    { clear - F. induction F; simpl; congruence. }
    split; [exact Hfst|]. split.
    + clear - F. induction F as [|a b l l' E F IH]; simpl; [tauto|]. intros t v [[= -> ->]|Hi]; auto.
    + unfold curve_save_at_times. rewrite E. cbn [bind]. rewrite <- Hfst at 1. rewrite <- Hsnd at 2.
      apply write_rows; auto. intros X. rewrite X in Hfst. now elim Hts.
  - intros Hout. unfold curve_save_at_times. destruct Hout as [->|(t & Ht & Ho)]; [reflexivity|].
    rewrite (mapM_abort (pw_evaluate mid c) times t); auto.
    + intros a _. destruct (Rle_lt_dec (min_time (s_mgr c)) a); [destruct (Rle_lt_dec a (max_time (s_mgr c)))|].
      * left. destruct (pw_defined mid c a Hmid Hc Hn) as (v & Ev); [lra|]. eauto.
      * right. apply pw_outside; auto.
      * right. apply pw_outside; auto.
    + apply pw_outside; auto. destruct (Rle_lt_dec (min_time (s_mgr c)) t); [right|left]; lra.
Qed.

End Saved.

(** ** C83: the files of a composition curve *)

Section ComposedFiles.
Context {V : Type} `{GroupLaws V}.
Local Notation comp := (comp R V).
Variables mb mc : @middle R V.
Hypothesis Hmb : starts mb.
Hypothesis Hmc : starts mc.
Local Notation eb := (pw_evaluate mb).
Local Notation ec := (pw_evaluate mc).
Variable show : R -> text.
Variable nums : V -> list R.
Hypothesis Hnums : forall v, length (nums v) = 7%nat.

(** Every base time is in the range of the corrections. *)
Definition base_covered (c : comp) : Prop :=
  forall t, In t (comp_base_times c) ->
    min_time (s_mgr (c_corr c)) <= t <= max_time (s_mgr (c_corr c)).

Lemma composed_values (c : comp) : consistent (s_mgr (c_base c)) -> consistent (s_mgr (c_corr c)) ->
  contents (s_mgr (c_corr c)) <> [] ->
  (base_covered c -> exists rows, map fst rows = comp_base_times c /\
     mapM (comp_evaluate eb ec c) (comp_base_times c) = Ok (map snd rows) /\
     forall t v, In (t, v) rows -> comp_evaluate eb ec c t = Ok v /\
       exists k b, ec (c_corr c) t = Ok k /\ In (t, b) (contents (s_mgr (c_base c))) /\ v = gmul k b) /\
  (~ base_covered c -> mapM (comp_evaluate eb ec c) (comp_base_times c) = Abort).
Proof.
  intros Hb Hk Nk.
  assert (Hval : forall t b, In (t, b) (contents (s_mgr (c_base c))) ->
    (exists k, ec (c_corr c) t = Ok k /\ comp_evaluate eb ec c t = Ok (gmul k b) /\
       min_time (s_mgr (c_corr c)) <= t <= max_time (s_mgr (c_corr c))) \/
    (comp_evaluate eb ec c t = Abort /\ ~ min_time (s_mgr (c_corr c)) <= t <= max_time (s_mgr (c_corr c)))).
  { intros t b Hi. unfold comp_evaluate.
    assert (D : min_time (s_mgr (c_corr c)) <= t <= max_time (s_mgr (c_corr c)) \/
                ~ min_time (s_mgr (c_corr c)) <= t <= max_time (s_mgr (c_corr c))).
    { destruct (Rle_lt_dec (min_time (s_mgr (c_corr c))) t); [destruct (Rle_lt_dec t (max_time (s_mgr (c_corr c))))|];
        [left|right|right]; lra. }
    destruct D as [D|D].
    - left. destruct (pw_defined mc (c_corr c) t Hmc Hk Nk D) as (k & Ek). exists k. split; [exact Ek|].
      rewrite Ek. cbn [bind]. rewrite (pw_at mb (c_base c) t b Hmb Hb Hi). split; [reflexivity|exact D].
    - right. rewrite (pw_outside mc (c_corr c) t); auto; destruct (Rle_lt_dec (min_time (s_mgr (c_corr c))) t); [right|left]; lra. }
  unfold comp_base_times in *. unfold base_covered, comp_base_times. rewrite <- contents_times. split.
  - intros Hcov. clear Hb.
    induction (contents (s_mgr (c_base c))) as [|[t b] r IH].
    + exists []. split; [reflexivity|]. split; [reflexivity|]. intros ? ? [].
    + destruct IH as (rows & E1 & E2 & E3).
      { intros t' b' Hi. apply Hval. now right. }
      { intros t' Hi. apply Hcov. simpl. auto. }
      destruct (Hval t b) as [(k & Ek & Ev & _)|[_ Ho]]; [now left| |elim Ho; apply Hcov; simpl; auto].
      exists ((t, gmul k b) :: rows). cbn [map fst snd]. split; [now rewrite E1|]. split.
      * cbn [mapM]. rewrite Ev. cbn [bind]. rewrite E2. reflexivity.
      * intros t' v' [[= <- <-]|Hi].
        { split; [exact Ev|]. exists k, b. split; [exact Ek|]. split; [now left|reflexivity]. }
        { destruct (E3 t' v' Hi) as (A & k' & b' & B & C & D). split; [exact A|]. exists k', b'. simpl. auto. }
  - intros Hcov.
    assert (X : exists t b, In (t, b) (contents (s_mgr (c_base c))) /\
                  ~ min_time (s_mgr (c_corr c)) <= t <= max_time (s_mgr (c_corr c))).
    { clear Hb. induction (contents (s_mgr (c_base c))) as [|[t b] r IH]; [elim Hcov; intros t []|].
      destruct (Hval t b) as [(k & _ & _ & D)|[_ Ho]]; [now left| |exists t, b; simpl; auto].
      destruct IH as (t' & b' & Hi & Ho).
      - intros t' b' Hi. apply Hval. now right.
      - intros Hr. apply Hcov. intros t' [<-|Hi]; [exact D|]. now apply Hr.
      - exists t', b'. simpl. auto. }
    destruct X as (t & b & Hi & Ho). apply (mapM_abort _ _ t).
    + intros a Ha. apply in_map_iff in Ha as ([t' b'] & <- & Ha).
      destruct (Hval t' b' Ha) as [(k & _ & Ev & _)|[Ev _]]; [left; eauto|now right].
    + apply in_map_iff. exists (t, b). auto.
    + destruct (Hval t b Hi) as [(k & _ & _ & D)|[Ev _]]; [contradiction|exact Ev].
Qed.

(** saveCurveTimesAndValues: at each base time the correction there times the base
    coefficient; it aborts if the base is empty or has a time the corrections do not reach. *)
Theorem C83_saved : forall c : comp, consistent (s_mgr (c_base c)) -> consistent (s_mgr (c_corr c)) ->
  contents (s_mgr (c_corr c)) <> [] ->
  (contents (s_mgr (c_base c)) <> [] -> base_covered c ->
   exists rows, map fst rows = comp_base_times c /\
     (forall t v, In (t, v) rows -> comp_evaluate eb ec c t = Ok v /\
        exists k b, ec (c_corr c) t = Ok k /\ In (t, b) (contents (s_mgr (c_base c))) /\ v = gmul k b) /\
     comp_save show nums eb ec c = Ok (csv_file show nums rows)) /\
  (contents (s_mgr (c_base c)) = [] \/ ~ base_covered c -> comp_save show nums eb ec c = Abort).
Proof.
  intros c Hb Hk Nk. destruct (composed_values c Hb Hk Nk) as [A B]. split.
  - intros Nb Hcov. destruct (A Hcov) as (rows & E1 & E2 & E3). exists rows.
    split; [exact E1|]. split; [exact E3|].
    unfold comp_save, comp_save_at_times. fold (comp_base_times c). rewrite E2. cbn [bind]. rewrite <- E1.
    apply write_rows; auto. intros ->. unfold comp_base_times in E1. rewrite <- contents_times in E1.
    destruct (contents (s_mgr (c_base c))); [congruence|discriminate].
  - intros [E|Hcov]; unfold comp_save, comp_save_at_times; fold (comp_base_times c).
    + unfold comp_base_times. rewrite <- contents_times, E. reflexivity.
    + now rewrite (B Hcov).
Qed.

(** saveCurves writes the base, the corrections and the composed curve, the last at the
    times of the base. *)
Theorem C83_save_curves : forall c : comp, consistent (s_mgr (c_base c)) -> consistent (s_mgr (c_corr c)) ->
  contents (s_mgr (c_corr c)) <> [] ->
  (contents (s_mgr (c_base c)) <> [] -> base_covered c ->
   exists composed, comp_save show nums eb ec c = Ok composed /\
     comp_save_curves show nums eb ec c =
       Ok (csv_file show nums (contents (s_mgr (c_base c))), csv_file show nums (contents (s_mgr (c_corr c))), composed)) /\
  (contents (s_mgr (c_base c)) = [] \/ ~ base_covered c -> comp_save_curves show nums eb ec c = Abort).
Proof.
  intros c Hb Hk Nk. destruct (composed_values c Hb Hk Nk) as [A B].
  assert (E : comp_save_curves show nums eb ec c =
    let* vs := mapM (comp_evaluate eb ec c) (comp_base_times c) in
    let* f1 := write_time_vector_csv show (comp_base_times c) (map nums (map snd (contents (s_mgr (c_base c))))) in
    let* f3 := write_time_vector_csv show (comp_base_times c) (map nums vs) in
    Ok (f1, csv_file show nums (contents (s_mgr (c_corr c))), f3)).
  { unfold comp_save_curves, comp_base_times. cbn zeta. rewrite <- !contents_times.
    rewrite (mapM_contents (eb (c_base c))) by (intros t v Hi; now apply pw_at). cbn [bind].
    rewrite (mapM_contents (ec (c_corr c))) by (intros t v Hi; now apply pw_at). cbn [bind].
    rewrite (write_rows show nums (contents (s_mgr (c_corr c)))) by auto. reflexivity. }
  rewrite E. split.
  - intros Nb Hcov. destruct (A Hcov) as (rows & E1 & E2 & _).
    assert (Nr : rows <> []).
    { intros ->. unfold comp_base_times in E1. rewrite <- contents_times in E1.
      destruct (contents (s_mgr (c_base c))); [congruence|discriminate]. }
    exists (csv_file show nums rows). rewrite E2. cbn [bind].
    unfold comp_save, comp_save_at_times. fold (comp_base_times c). rewrite E2. cbn [bind].
    assert (W : write_time_vector_csv show (comp_base_times c) (map nums (map snd rows)) = Ok (csv_file show nums rows)).
    { rewrite <- E1. now apply write_rows. }
    rewrite W. split; [reflexivity|]. unfold comp_base_times. rewrite <- contents_times.
    rewrite write_rows by auto. reflexivity.
  - intros [En|Hcov].
    + unfold comp_base_times. rewrite <- contents_times, En. reflexivity.
    + now rewrite (B Hcov).
Qed.

(** The correction file has the correction coefficients, or the values of the corrections at
    the given times; it aborts without corrections, without times or for a time they do not reach. *)
Theorem C83_corrections : forall (c : comp) times, consistent (s_mgr (c_corr c)) ->
  (contents (s_mgr (c_corr c)) = [] -> comp_save_correction show nums ec c = Abort) /\
  (contents (s_mgr (c_corr c)) <> [] ->
     comp_save_correction show nums ec c = Ok (csv_file show nums (contents (s_mgr (c_corr c)))) /\
     (times <> [] -> (forall t, In t times -> min_time (s_mgr (c_corr c)) <= t <= max_time (s_mgr (c_corr c))) ->
        exists rows, map fst rows = times /\ (forall t v, In (t, v) rows -> ec (c_corr c) t = Ok v) /\
          comp_save_correction_at_times show nums ec c times = Ok (csv_file show nums rows)) /\
     ((times = [] \/ exists t, In t times /\ ~ min_time (s_mgr (c_corr c)) <= t <= max_time (s_mgr (c_corr c))) ->
        comp_save_correction_at_times show nums ec c times = Abort)).
Proof.
  intros c times Hk. destruct (C82_saved mc Hmc show nums Hnums (c_corr c) Hk) as [A B]. split; [exact A|].
  intros Hn. split; [exact (B Hn)|]. exact (C82_saved_at_times mc Hmc show nums Hnums (c_corr c) times Hk Hn).
Qed.

End ComposedFiles.

(** ** C84: changing part of the base curve *)

Section BasePart.
Context {V : Type} `{GroupLaws V}.
Local Notation comp := (comp R V).
Variables mb mc : @middle R V.
Hypothesis Hmb : starts mb.
Local Notation eb := (pw_evaluate mb).
Local Notation ec := (pw_evaluate mc).

(** setBaseCurvePart adds to the base; it returns exactly if base and corrections then have
    the same range.  The new values are not compensated for the corrections. *)
Theorem C84_set_base_part : forall g (c : comp) (ts : list R) (vs : list V),
  sane g (s_mgr (c_base c)) -> contents (s_mgr (c_base c)) <> [] ->
  length ts = length vs -> (g + N.of_nat (length ts) < 2 ^ 64)%N ->
  let whole := spans (comp_base_times c ++ ts) (min_time (s_mgr (c_corr c))) (max_time (s_mgr (c_corr c))) in
  (whole ->
   exists g' c', comp_set_base_part g c ts vs = Ok (g', c') /\ c_corr c' = c_corr c /\
     (forall t, In t (comp_base_times c') <-> In t (comp_base_times c) \/ In t ts) /\
     (forall t v, last_value (combine ts vs) t = Some v ->
        comp_evaluate eb ec c' t = omap (fun k => gmul k v) (ec (c_corr c) t)) /\
     (forall t, In t (comp_base_times c) -> ~ In t ts -> comp_evaluate eb ec c' t = comp_evaluate eb ec c t)) /\
  (~ whole -> comp_set_base_part g c ts vs = Abort).
Proof.
  intros g c ts vs [Hb Hkb] Nb Hl Hg whole.
  assert (X : exists g' m', comp_set_base_part g c ts vs = checked g' (Comp (Slerp m' (s_pol (c_base c))) (c_corr c)) /\
    consistent m' /\
    (forall t v, last_value (combine ts vs) t = Some v -> In (t, v) (contents m')) /\
    (forall t v, last_value (combine ts vs) t = None -> In (t, v) (contents m') <-> In (t, v) (contents (s_mgr (c_base c))))).
  { destruct (C04_bulk_values g (s_mgr (c_base c)) ts vs [] Hb Hkb Hg Hl) as (g' & m' & ks & E & Hc' & _ & H1 & H2 & _).
    unfold comp_set_base_part, slerp_set_curve. rewrite Hl, Nat.eqb_refl. cbn [negb].
    destruct ts as [|t0 ts'].
    - exists g, (s_mgr (c_base c)). split; [destruct c as [[m p] k]; reflexivity|]. split; [exact Hb|].
      split; [discriminate|]. tauto.
    - exists g', m'. rewrite E. cbn [bind]. split; [reflexivity|]. split; [exact Hc'|]. split.
      + intros t v Ev. apply holds_contents. now apply H1.
      + intros t v Ev. rewrite <- !holds_contents. split; intros (k & Hh); exists k; now apply (H2 t k v Ev). }
  destruct X as (g' & m' & -> & Hc' & Hnew & Hold).
  assert (HF : Forall2 (fun (_ : R) (_ : V) => True) ts vs).
  { clear - Hl. revert vs Hl. induction ts; intros [|? ?] Hl; try discriminate; constructor; auto. }
  assert (Hin : forall t, In t (comp_base_times c ++ ts) <-> exists v, In (t, v) (contents m')).
  { intros t. rewrite in_app_iff. destruct (last_value_all _ _ _ t HF) as [A B].
    destruct (last_value (combine ts vs) t) as [v|] eqn:Ev.
    - split; [intros _; exists v; now apply Hnew|]. intros _. right. now apply (A v).
    - assert (Nt : ~ In t ts) by (intros Hi; destruct (B Hi) as (v & Hv); discriminate).
      unfold comp_base_times. rewrite <- contents_times, in_map_iff. split.
      + intros [([t' v] & <- & Hi)|Hi]; [|contradiction]. exists v. now apply Hold.
      + intros (v & Hi). left. exists (t, v). split; [reflexivity|]. now apply Hold. }
  assert (Hne : comp_base_times c ++ ts <> []).
  { unfold comp_base_times. rewrite <- contents_times. destruct (contents (s_mgr (c_base c))); [congruence|discriminate]. }
  pose proof (range_spans m' (comp_base_times c ++ ts) (min_time (s_mgr (c_corr c))) (max_time (s_mgr (c_corr c))) Hc' Hne Hin) as Hr.
  set (c' := Comp (Slerp m' (s_pol (c_base c))) (c_corr c)).
  assert (Hsr : same_range c' = true <-> whole).
  { unfold whole. rewrite same_range_R, <- Hr. cbn [c_base c_corr c' s_mgr]. split; intros [A B]; split; auto. }
  unfold checked. split.
  - intros Hw. apply Hsr in Hw as Esr. rewrite Esr. exists g', c'. split; [reflexivity|]. split; [reflexivity|].
    split; [|split].
    + intros t. rewrite <- in_app_iff, Hin. unfold comp_base_times. rewrite <- contents_times, in_map_iff. simpl. split.
      * intros ([t' v] & <- & Hi). simpl. eauto.
      * intros (v & Hi). exists (t, v). auto.
    + intros t v Ev. unfold comp_evaluate. cbn [c_base c_corr c'].
      rewrite (pw_at mb (Slerp m' (s_pol (c_base c))) t v Hmb Hc' (Hnew t v Ev)). reflexivity.
    + intros t Ht Nt. unfold comp_base_times in Ht. rewrite <- contents_times in Ht.
      apply in_map_iff in Ht as ([t' v] & <- & Hi). cbn [fst] in Nt. cbn [fst].
      assert (Ev : last_value (combine ts vs) t' = None).
      { destruct (last_value (combine ts vs) t') as [w|] eqn:Ew; [|reflexivity].
        destruct (last_value_all _ _ _ t' HF) as [A _]. destruct (A w Ew). contradiction. }
      unfold comp_evaluate. cbn [c_base c_corr c'].
      rewrite (pw_at mb (Slerp m' (s_pol (c_base c))) t' v Hmb Hc') by now apply Hold.
      rewrite (pw_at mb (c_base c) t' v Hmb Hb Hi). reflexivity.
  - intros Hw. destruct (same_range c') eqn:X; [|reflexivity]. elim Hw. now apply Hsr.
Qed.

Lemma last_value_in (ts : list R) (vs : list V) t x : last_value (combine ts vs) t = Some x -> In t ts.
Proof.
  revert vs. induction ts as [|b l IH]; intros [|y vs] Ex; simpl in *; try discriminate.
  destruct (last_value (combine l vs) t) eqn:E; [right; apply (IH vs); congruence|].
  destruct (teq b t) eqn:Eb; [|discriminate]. apply teq_R in Eb. now left.
Qed.

(** modifyBaseCoefficientsValuesInBatch with a run of neighbouring base times: it replaces
    their values and nothing else, or aborts if the two ranges differ (they differed before). *)
Theorem C84_modify_base : forall g (c : comp) p mid q (vs : list V),
  consistent (s_mgr (c_base c)) -> comp_base_times c = p ++ mid ++ q -> mid <> [] -> length mid = length vs ->
  let same := min_time (s_mgr (c_corr c)) = comp_min_time c /\ max_time (s_mgr (c_corr c)) = comp_max_time c in
  (same ->
   exists c', comp_modify_base g c mid vs = Ok (g, c') /\ c_corr c' = c_corr c /\
     comp_base_times c' = comp_base_times c /\ get_keys (s_mgr (c_base c')) = get_keys (s_mgr (c_base c)) /\
     (forall t v, In (t, v) (combine mid vs) ->
        comp_evaluate eb ec c' t = omap (fun k => gmul k v) (ec (c_corr c) t)) /\
     (forall t, In t (p ++ q) -> comp_evaluate eb ec c' t = comp_evaluate eb ec c t)) /\
  (~ same -> comp_modify_base g c mid vs = Abort).
Proof.
  intros g c p mid q vs Hb Ht Hm Hl same.
  assert (Hf : Forall2 (fun t' t => teq t' t = true) mid mid).
  { clear. induction mid; constructor; auto. apply teq_refl. }
  destruct (C11_batch (s_mgr (c_base c)) p mid q mid vs Hb Ht Hm Hl Hf) as (m' & E & Hc' & Et & Ek & Hh).
  set (c' := Comp (Slerp m' (s_pol (c_base c))) (c_corr c)).
  assert (Ec : comp_modify_base g c mid vs = checked g c') by (unfold comp_modify_base; rewrite E; reflexivity).
  assert (Hmin : min_time m' = min_time (s_mgr (c_base c)) /\ max_time m' = max_time (s_mgr (c_base c))).
  { apply (range_spans m' (get_times (s_mgr (c_base c)))); auto.
    - unfold comp_base_times in Ht. rewrite Ht. destruct p; [destruct mid; [congruence|discriminate]|discriminate].
    - intros t. rewrite <- Et, <- contents_times, in_map_iff. split; [intros ([t' v] & <- & Hi); simpl; eauto|].
      intros (v & Hi). exists (t, v). auto.
    - assert (Y : spans (get_times (s_mgr (c_base c))) (min_time (s_mgr (c_base c))) (max_time (s_mgr (c_base c)))).
      { apply (range_spans (s_mgr (c_base c)) (get_times (s_mgr (c_base c)))); auto.
        - unfold comp_base_times in Ht. rewrite Ht. destruct p; [destruct mid; [congruence|discriminate]|discriminate].
        - intros t. rewrite <- contents_times, in_map_iff. split; [intros ([t' v] & <- & Hi); simpl; eauto|].
          intros (v & Hi). exists (t, v). auto. }
      exact Y. }
  assert (Hsr : same_range c' = true <-> same).
  { rewrite same_range_R. cbn [c_base c_corr c' s_mgr]. destruct Hmin as [-> ->]. reflexivity. }
  (* the times are distinct *)
  assert (Hnd : NoDup (p ++ mid ++ q)).
  { rewrite <- Ht. pose proof (c_sorted _ Hb) as Hs. unfold comp_base_times.
    clear - Hs. induction (get_times (s_mgr (c_base c))) as [|t r IH]; constructor.
    - inversion Hs as [|? ? Hs' Hfa]; subst. intros Hi. rewrite Forall_forall in Hfa. apply Hfa in Hi.
      unfold t_lt in Hi. simpl in Hi. apply Rltb_lt in Hi. lra.
    - apply IH. now inversion Hs. }
  rewrite Ec. unfold checked. split.
  - intros Hw. apply Hsr in Hw as ->. exists c'. split; [reflexivity|]. split; [reflexivity|].
    split; [exact Et|]. split; [exact Ek|]. split.
    + intros t v Hi.
      assert (Ev : last_value (combine mid vs) t = Some v).
      { apply NoDup_app_iff in Hnd as (_ & Hnd & _). apply NoDup_app_iff in Hnd as (Hnd & _ & _).
        clear - Hnd Hi. revert vs Hi. induction mid as [|a l IH]; intros [|w vs] Hi; try destruct Hi.
        - injection H as -> ->. simpl. inversion Hnd; subst.
          assert (N : last_value (combine l vs) t = None).
          { destruct (last_value (combine l vs) t) as [x|] eqn:Ex; [|reflexivity].
            apply last_value_in in Ex. contradiction. }
          rewrite N. now rewrite teq_refl.
        - simpl. inversion Hnd; subst. rewrite (IH H3 vs H). reflexivity. }
      unfold comp_evaluate. cbn [c_base c_corr c'].
      assert (Hin : In t (get_times (s_mgr (c_base c)))).
      { unfold comp_base_times in Ht. rewrite Ht, !in_app_iff. right. left. now apply in_combine_l in Hi. }
      rewrite <- contents_times, in_map_iff in Hin. destruct Hin as ([t' w] & <- & Hin). cbn [fst] in *.
      apply holds_contents in Hin as (k & Hk).
      rewrite (pw_at mb (Slerp m' (s_pol (c_base c))) t' v Hmb Hc'); [reflexivity|].
      apply holds_contents. exists k. apply Hh. rewrite Ev. eauto.
    + intros t Hi.
      assert (Nt : ~ In t mid).
      { intros Hmid. apply NoDup_app_iff in Hnd as (_ & Hnd' & Hd). apply NoDup_app_iff in Hnd' as (_ & _ & Hd').
        apply in_app_iff in Hi as [Hi|Hi]; [apply (Hd t Hi); rewrite in_app_iff; auto|now apply (Hd' t)]. }
      assert (Ev : last_value (combine mid vs) t = None).
      { destruct (last_value (combine mid vs) t) as [x|] eqn:Ex; [|reflexivity].
        apply last_value_in in Ex. contradiction. }
      assert (Hin : In t (get_times (s_mgr (c_base c)))).
      { unfold comp_base_times in Ht. rewrite Ht, !in_app_iff. apply in_app_iff in Hi. tauto. }
      rewrite <- contents_times, in_map_iff in Hin. destruct Hin as ([t' w] & <- & Hin). cbn [fst] in *.
      unfold comp_evaluate. cbn [c_base c_corr c'].
      rewrite (pw_at mb (c_base c) t' w Hmb Hb Hin). apply holds_contents in Hin as (k & Hk).
      rewrite (pw_at mb (Slerp m' (s_pol (c_base c))) t' w Hmb Hc'); [reflexivity|].
      apply holds_contents. exists k. apply Hh. now rewrite Ev.
  - intros Hw. destruct (same_range c') eqn:X; [|reflexivity]. elim Hw. now apply Hsr.
Qed.

End BasePart.

(** ** C85: the minimal sampling period has no effect *)

Section Period.
Context {S : Type} `{Num S} `{TimeOps S} {V : Type} `{GroupOps V}.
Local Notation curve := (@slerp_curve S V).
Local Notation comp := (comp S V).

Definition keep_period (d : S) (r : N * curve * list N) : N * curve * list N :=
  (fst (fst r), slerp_set_period (snd (fst r)) d, snd r).

Lemma extend_one_period g (c : curve) d t v out :
  slerp_extend_one g (slerp_set_period c d) t v out = omap (keep_period d) (slerp_extend_one g c t v out).
Proof.
  unfold slerp_extend_one, slerp_set_period, count_up. cbn [s_mgr s_pol p_min p_count p_period p_last].
  destruct (Z.eqb (p_min (s_pol c)) 1).
  - destruct (add_coefficient_at_end g (s_mgr c) t v out) as [[[g' m'] o']| | |]; reflexivity.
  - destruct (Z.eqb (p_count (s_pol c)) int_max); [reflexivity|]. cbn [bind p_min p_count p_period p_last].
    destruct (Z.eqb (p_count (s_pol c) + 1) 1).
    + destruct (add_coefficient_at_end g (s_mgr c) t v out) as [[[g' m'] o']| | |]; try reflexivity.
      cbn [bind]. destruct (Z.eqb (p_count (s_pol c) + 1) (p_min (s_pol c))); reflexivity.
    + destruct (last_node (nodes (s_mgr c))) as [n|]; [|reflexivity].
      destruct (modify_coefficient (s_mgr c) (At (n_id n)) t v) as [m'| | |]; try reflexivity.
      cbn [bind]. destruct (Z.eqb (p_count (s_pol c) + 1) (p_min (s_pol c))); reflexivity.
Qed.

Lemma extend_period g (c : curve) d ts vs out :
  slerp_extend g (slerp_set_period c d) ts vs out = omap (keep_period d) (slerp_extend g c ts vs out).
Proof.
  assert (X : (let* (g', m', out') := insert_coefficients g (s_mgr c) ts vs out in
                 Ok (g', Slerp m' (s_pol (slerp_set_period c d)), out')) =
              omap (keep_period d) (let* (g', m', out') := insert_coefficients g (s_mgr c) ts vs out in
                 Ok (g', Slerp m' (s_pol c), out'))).
  { destruct (insert_coefficients g (s_mgr c) ts vs out) as [[[g' m'] o']| | |]; reflexivity. }
  unfold slerp_extend. cbn [s_mgr slerp_set_period].
  destruct (negb _); [reflexivity|].
  destruct ts as [|t [|? ?]]; [exact X| |exact X].
  destruct vs as [|v [|? ?]]; [exact X| |exact X].
  destruct (empty (s_mgr c) || Nat.eqb (size (s_mgr c)) 1); [exact X|]. apply extend_one_period.
Qed.

Lemma set_period_twice (c : curve) d d' : slerp_set_period (slerp_set_period c d) d' = slerp_set_period c d'.
Proof. reflexivity. Qed.

(** What a caller sees of a curve with its keys. *)
Definition seen (r : N * curve * list N) : N * mgr S V * list N := (fst (fst r), s_mgr (snd (fst r)), snd r).

(** SlerpSE3Curve and the discrete curves: setMinSamplingPeriod never changes which
    coefficients extend keeps. *)
Theorem C85_curve : forall g (c : curve) (d : S) ts vs out,
  omap seen (slerp_extend g (slerp_set_period c d) ts vs out) = omap seen (slerp_extend g c ts vs out).
Proof.
  intros. rewrite extend_period. destruct (slerp_extend g c ts vs out) as [[[g' c'] o']| | |]; reflexivity.
Qed.

Theorem C85_feed : forall g (c : curve) (d : S) ms out,
  omap seen (slerp_feed g (slerp_set_period c d) ms out) = omap seen (slerp_feed g c ms out).
Proof.
  intros g c d ms out.
  assert (X : forall ms g c out, slerp_feed g (slerp_set_period c d) ms out =
                omap (keep_period d) (slerp_feed g c ms out)).
  { clear. induction ms as [|[t v] ms IH]; intros g c out; [reflexivity|].
    unfold slerp_feed in *. cbn [foldM fst snd]. rewrite extend_period.
    destruct (slerp_extend g c [t] [v] out) as [[[g' c'] o']| | |]; cbn [bind omap]; try reflexivity. apply IH. }
  rewrite X. destruct (slerp_feed g c ms out) as [[[g' c'] o']| | |]; reflexivity.
Qed.

(** Functions evaluate that look at the coefficients only, like those of the three classes. *)
Definition reads_coefficients (ev : curve -> S -> outcome V) : Prop :=
  forall c c' t, s_mgr c = s_mgr c' -> ev c t = ev c' t.

Lemma pw_reads mid : reads_coefficients (pw_evaluate mid).
Proof. intros c c' t E. unfold pw_evaluate. now rewrite E. Qed.

Lemma cover_period ec g (k : curve) d a b : reads_coefficients ec ->
  comp_cover ec g (slerp_set_period k d) a b =
  omap (fun r => (fst r, slerp_set_period (snd r) d)) (comp_cover ec g k a b).
Proof.
  intros He. unfold comp_cover. cbn [s_mgr slerp_set_period].
  assert (E1 : (if empty (s_mgr k) then
      let* (g1, k1, _) := slerp_extend g (slerp_set_period k d) [a] [gone] [] in Ok (g1, k1, [a], [gone])
    else Ok (g, slerp_set_period k d, [], [])) =
    omap (fun r => let '(g1, k1, ts1, vs1) := r in (g1, slerp_set_period k1 d, ts1, vs1))
    (if empty (s_mgr k) then
      let* (g1, k1, _) := slerp_extend g k [a] [gone] [] in Ok (g1, k1, [a], [gone])
    else Ok (g, k, [], []))).
  { destruct (empty (s_mgr k)); [|reflexivity]. rewrite extend_period.
    destruct (slerp_extend g k [a] [gone] []) as [[[g' c'] o']| | |]; reflexivity. }
  fold (slerp_set_period k d) in *. rewrite E1. clear E1.
  destruct (if empty (s_mgr k) then
      let* (g1, k1, _) := slerp_extend g k [a] [gone] [] in Ok (g1, k1, [a], [gone])
    else Ok (g, k, [], [])) as [[[[g1 k1] ts1] vs1]| | |]; cbn [omap bind]; try reflexivity.
  cbn [s_mgr slerp_set_period]. fold (slerp_set_period k1 d).
  assert (E2 : (if nltb (max_time (s_mgr k1)) b then
      let* v := ec (slerp_set_period k1 d) (max_time (s_mgr k1)) in
      let* (g2, k2, _) := slerp_extend g1 (slerp_set_period k1 d) (ts1 ++ [b]) (vs1 ++ [v]) [] in
      Ok (g2, k2, ts1 ++ [b], vs1 ++ [v])
    else Ok (g1, slerp_set_period k1 d, ts1, vs1)) =
    omap (fun r => let '(g1, k1, ts1, vs1) := r in (g1, slerp_set_period k1 d, ts1, vs1))
    (if nltb (max_time (s_mgr k1)) b then
      let* v := ec k1 (max_time (s_mgr k1)) in
      let* (g2, k2, _) := slerp_extend g1 k1 (ts1 ++ [b]) (vs1 ++ [v]) [] in
      Ok (g2, k2, ts1 ++ [b], vs1 ++ [v])
    else Ok (g1, k1, ts1, vs1))).
  { destruct (nltb (max_time (s_mgr k1)) b); [|reflexivity].
    rewrite (He (slerp_set_period k1 d) k1) by reflexivity.
    destruct (ec k1 (max_time (s_mgr k1))) as [v| | |]; cbn [bind omap]; try reflexivity. rewrite extend_period.
    destruct (slerp_extend g1 k1 (ts1 ++ [b]) (vs1 ++ [v]) []) as [[[g' c'] o']| | |]; reflexivity. }
  rewrite E2. clear E2.
  match goal with |- context [omap _ ?x] => destruct x as [[[[g2 k2] ts2] vs2]| | |] end; cbn [omap bind]; try reflexivity.
  cbn [s_mgr slerp_set_period]. fold (slerp_set_period k2 d).
  destruct (nltb a (min_time (s_mgr k2))); [|reflexivity].
  rewrite (He (slerp_set_period k2 d) k2) by reflexivity.
  destruct (ec k2 (min_time (s_mgr k2))) as [v| | |]; cbn [bind omap]; try reflexivity. rewrite extend_period.
  destruct (slerp_extend g2 k2 (ts2 ++ [a]) (vs2 ++ [v]) []) as [[[g' c'] o']| | |]; reflexivity.
Qed.

Definition comp_seen (r : N * comp * list N) : N * mgr S V * mgr S V * list N :=
  (fst (fst r), s_mgr (c_base (snd (fst r))), s_mgr (c_corr (snd (fst r))), snd r).

(** The composition curve passes the period on to the corrections, where it is ignored as
    well; its values are also the same. *)
Theorem C85_composition : forall eb ec g (c : comp) (d : S) ts vs out t,
  reads_coefficients eb -> reads_coefficients ec ->
  omap comp_seen (comp_extend ec g (comp_set_period c d) ts vs out) = omap comp_seen (comp_extend ec g c ts vs out) /\
  comp_evaluate eb ec (comp_set_period c d) t = comp_evaluate eb ec c t.
Proof.
  intros eb ec g c d ts vs out t He Hec. split.
  - destruct ts as [|t0 [|? ?]]; try reflexivity; destruct vs as [|v [|? ?]]; try reflexivity.
    unfold comp_extend, comp_set_period. cbn zeta. cbn [c_base c_corr].
    change (s_mgr (slerp_set_period (c_base c) (nofZ 0))) with (s_mgr (c_base c)).
    match goal with |- context [comp_cover ec g (c_corr c) ?x ?y] => set (a := x); set (b := y) end.
    rewrite cover_period by exact Hec.
    destruct (comp_cover ec g (c_corr c) a b) as [[g1 k]| | |]; cbn [omap bind fst snd]; try reflexivity.
    rewrite (Hec (slerp_set_period k d) k) by reflexivity.
    destruct (ec k t0) as [kt| | |]; cbn [omap bind]; try reflexivity.
    rewrite extend_period.
    destruct (slerp_extend g1 (c_base c) [t0] [gmul (ginv kt) v] out) as [[[g2 b'] o']| | |]; reflexivity.
  - unfold comp_evaluate, comp_set_period. cbn [c_base c_corr].
    rewrite (Hec (slerp_set_period (c_corr c) d) (c_corr c)) by reflexivity.
    rewrite (He (slerp_set_period (c_base c) (nofZ 0)) (c_base c)) by reflexivity. reflexivity.
Qed.

End Period.

(** ** C86: printing *)

Section Print.
Context {V : Type}.
Local Notation curve := (@slerp_curve R V).
Variable dist : V -> V -> R.

Definition total (l : list R) : R := fold_right Rplus 0 l.

(** The distances between neighbouring values. *)
Fixpoint steps (l : list V) : list R :=
  match l with
  | a :: (b :: _) as r => dist a b :: steps r
  | _ => []
  end.

Lemma sum_distances_ok mid (c : curve) : starts mid -> consistent (s_mgr c) -> contents (s_mgr c) <> [] ->
  sum_distances (pw_evaluate mid) dist c (get_times (s_mgr c)) = Ok (total (steps (map snd (contents (s_mgr c))))).
Proof.
  intros Hst Hc Hn. rewrite <- contents_times.
  assert (Hv : forall t v, In (t, v) (contents (s_mgr c)) -> pw_evaluate mid c t = Ok v).
  { intros t v Hi. now apply pw_at. }
  destruct (contents (s_mgr c)) as [|[t v] r]; [congruence|]. cbn [map fst snd sum_distances].
  assert (X : forall r t v s, (forall t' v', In (t', v') ((t, v) :: r) -> pw_evaluate mid c t' = Ok v') ->
    exists t', foldM (fun s t => let* p1 := pw_evaluate mid c (fst s) in let* p2 := pw_evaluate mid c t in
      Ok (t, (snd s + dist p1 p2)%num)) (map fst r) (t, s) = Ok (t', s + total (steps (v :: map snd r)))).
  { clear. induction r as [|[t1 v1] r IH]; intros t v s Hv.
    - exists t. simpl. now rewrite Rplus_0_r.
    - cbn [map fst snd foldM]. rewrite (Hv t v) by (simpl; auto). cbn [bind].
      rewrite (Hv t1 v1) by (simpl; auto). cbn [bind].
      destruct (IH t1 v1 (s + dist v v1)) as (t' & E); [intros; apply Hv; simpl in *; auto|].
      exists t'. numR. rewrite E. cbn [steps total fold_right]. unfold total. f_equal. f_equal. cbn [steps]. lra. }
  destruct (X r t v 0 Hv) as (t' & E). numR. rewrite E. cbn [bind snd]. f_equal. cbn [map snd]. lra.
Qed.

(** The discrete curves: number, range and coefficients in time order with their keys, and
    for two or more coefficients the mean time step and the mean distance.  Printing an
    empty curve is undefined behaviour. *)
Theorem C86_discrete : forall mid (c : curve), starts mid -> consistent (s_mgr c) ->
  (size (s_mgr c) = 0%nat -> disc_print (pw_evaluate mid) dist c = UB) /\
  ((1 <= size (s_mgr c))%nat -> exists r, disc_print (pw_evaluate mid) dist c = Ok r /\
     r_count r = length (contents (s_mgr c)) /\
     map (fun l => (snd l, snd (fst l))) (r_lines r) = contents (s_mgr c) /\
     map (fun l => fst (fst l)) (r_lines r) = get_keys (s_mgr c) /\
     (forall t v, In (t, v) (contents (s_mgr c)) -> r_first r <= t <= r_last r) /\
     In (r_first r) (get_times (s_mgr c)) /\ In (r_last r) (get_times (s_mgr c)) /\
     ((2 <= size (s_mgr c))%nat ->
        r_mean_dt r * (INR (size (s_mgr c)) - 1) = r_last r - r_first r /\
        r_mean_distance r * (INR (size (s_mgr c)) - 1) = total (steps (map snd (contents (s_mgr c)))))).
Proof.
  intros mid c Hst Hc.
  assert (Lc : length (contents (s_mgr c)) = size (s_mgr c)) by (unfold contents, size; apply map_length).
  assert (Lt : length (get_times (s_mgr c)) = size (s_mgr c)) by (unfold get_times, size; apply map_length).
  split.
  - intros En. unfold disc_print. destruct (get_times (s_mgr c)); [reflexivity|simpl in Lt; lia].
  - intros Hn. assert (Nc : contents (s_mgr c) <> []) by (destruct (contents (s_mgr c)); simpl in *; [lia|discriminate]).
    unfold disc_print. cbn zeta. rewrite (sum_distances_ok mid c Hst Hc Nc). cbn [bind].
    set (lines := map (fun n => (n_key n, n_coef n, n_time n)) (nodes (s_mgr c))).
    assert (El : mapM (fun kt => let* v := get_coefficient_by_key (s_mgr c) (fst kt) in Ok (fst kt, v, snd kt))
                   (combine (get_keys (s_mgr c)) (get_times (s_mgr c))) = Ok lines).
    { unfold lines, get_keys, get_times.
      assert (Hk : forall n, In n (nodes (s_mgr c)) -> get_coefficient_by_key (s_mgr c) (n_key n) = Ok (n_coef n)).
      { intros n Hi. now apply get_by_key_ok. }
      assert (Y : forall l : list (node R V), (forall n, In n l -> get_coefficient_by_key (s_mgr c) (n_key n) = Ok (n_coef n)) ->
        mapM (fun kt : N * R => let* v := get_coefficient_by_key (s_mgr c) (fst kt) in Ok (fst kt, v, snd kt))
          (combine (map n_key l) (map n_time l)) = Ok (map (fun n => (n_key n, n_coef n, n_time n)) l)); [|now apply Y].
      clear Hk. induction l as [|n l IH]; intros Hk; [reflexivity|].
      cbn [map combine mapM fst snd]. rewrite Hk by now left. cbn [bind]. rewrite IH by (intros; apply Hk; now right).
      reflexivity. }
    rewrite El. cbn [bind]. eexists. split; [reflexivity|]. cbn [r_count r_lines r_first r_last r_mean_dt r_mean_distance].
    split; [now rewrite Lc|]. split; [unfold lines; rewrite map_map; reflexivity|].
    split; [unfold lines; rewrite map_map; reflexivity|].
    split; [intros t v Hi; now apply (contents_bounds (s_mgr c) t v)|].
    assert (Hs : spans (get_times (s_mgr c)) (min_time (s_mgr c)) (max_time (s_mgr c))).
    { apply (range_spans (s_mgr c)); auto.
      - destruct (get_times (s_mgr c)); simpl in *; [lia|discriminate].
      - intros t. rewrite <- contents_times, in_map_iff. split; [intros ([t' v] & <- & Hi); simpl; eauto|].
        intros (v & Hi). exists (t, v). auto. }
    split; [apply Hs|]. split; [apply Hs|]. intros H2. rewrite Lt. numR.
    assert (E : IZR (Z.of_nat (size (s_mgr c)) - 1) = INR (size (s_mgr c)) - 1).
    { rewrite minus_IZR, <- INR_IZR_INZ. reflexivity. }
    rewrite E. assert (INR (size (s_mgr c)) - 1 <> 0).
    { apply le_INR in H2. simpl in H2. lra. }
    split; field; assumption.
Qed.

(** SlerpSE3Curve: undefined behaviour on an empty curve, an abort with two or more
    coefficients; with one coefficient its time is shown, and the means divide by zero. *)
Theorem C86_slerp : forall c : curve,
  (size (s_mgr c) = 0%nat -> slerp_print slerp_evaluate dist c = UB) /\
  ((2 <= size (s_mgr c))%nat -> slerp_print slerp_evaluate dist c = Abort) /\
  (forall t v, contents (s_mgr c) = [(t, v)] -> exists r, slerp_print slerp_evaluate dist c = Ok r /\
     r_count r = 1%nat /\ r_first r = t /\ r_last r = t /\ r_lines r = [t] /\
     r_mean_dt r = (t - t) / 0 /\ r_mean_distance r = 0 / 0).
Proof.
  intros c. unfold slerp_print, size, min_time, max_time, contents, get_times.
  destruct (nodes (s_mgr c)) as [|n [|n2 l]]; simpl.
  - split; [reflexivity|]. split; [lia|discriminate].
  - split; [lia|]. split; [lia|]. intros t v [= <- <-]. eexists. split; [reflexivity|]. repeat split.
  - split; [lia|]. split; [reflexivity|discriminate].
Qed.

End Print.

(** ** The hypotheses above are met *)

Section Examples.
Existing Instance R_GroupOps.
Existing Instance R_GroupLaws.
Local Notation evn := (pw_evaluate nearer).

(** Seven numbers for a value. *)
Definition seven (v : R) : list R := [v; 0; 0; 1; 0; 0; 0].

(** A curve with two coefficients: it is kept by transformCurve of a discrete curve and
    lost by that of a slerp curve; it is saved and printed. *)
Example C82_example : exists c : @slerp_curve R R,
  consistent (s_mgr c) /\ contents (s_mgr c) = [(0, 10); (2, 20)] /\ size (s_mgr c) = 2%nat /\
  (forall show, curve_save show seven evn c = Ok (csv_file show seven [(0, 10); (2, 20)])) /\
  (forall show, curve_save_at_times show seven evn c [3] = Abort) /\
  curve_transform slerp_evaluate 0%N c 1 = Abort /\
  disc_print evn (fun x y => Rabs (x - y)) c <> UB /\
  slerp_print slerp_evaluate (fun x y => Rabs (x - y)) c = Abort.
Proof.
  destruct (curve_exists [(0, 10); (2, 20)] (Policy 0 1 0 0)) as (g & c & _ & [Hc _] & Ec & _);
    [apply two_increasing; lra|reflexivity|].
  assert (Es : size (s_mgr c) = 2%nat).
  { transitivity (length (contents (s_mgr c))); [unfold contents, size; now rewrite map_length|now rewrite Ec]. }
  assert (Nc : contents (s_mgr c) <> []) by (rewrite Ec; discriminate).
  exists c. split; [exact Hc|]. split; [exact Ec|]. split; [exact Es|]. split; [|split; [|split; [|split]]].
  - intros show. rewrite <- Ec. apply C82_saved; auto. apply nearer_starts.
  - intros show. apply (C82_saved_at_times nearer nearer_starts show seven (fun _ => eq_refl) c [3] Hc Nc).
    right. exists 3. split; [now left|]. rewrite (contents_max _ [(0, 10)] _ _ Ec). lra.
  - apply C81_transform. lia.
  - destruct (C86_discrete (fun x y => Rabs (x - y)) nearer c nearer_starts Hc) as [_ A].
    destruct A as (r & -> & _); [lia|discriminate].
  - apply C86_slerp. lia.
Qed.

(** A curve with one coefficient. *)
Example C86_example : exists c : @slerp_curve R R, consistent (s_mgr c) /\ contents (s_mgr c) = [(5, 7)].
Proof.
  destruct (curve_exists [(5, 7)] (Policy 0 1 0 0)) as (g & c & _ & [Hc _] & Ec & _); [simpl; auto|reflexivity|].
  eauto.
Qed.

(** A composition curve with corrections 0 at 0 and 3 at 2: its files, adding a base
    coefficient inside the range, one outside, and changing one. *)
Example C83_example : exists g (c : comp R R),
  sane g (s_mgr (c_base c)) /\ consistent (s_mgr (c_corr c)) /\ contents (s_mgr (c_corr c)) <> [] /\
  contents (s_mgr (c_base c)) <> [] /\ base_covered c /\
  (forall show, comp_save show seven evn evn c = Ok (csv_file show seven [(0, 0 + 10); (2, 3 + 20)])) /\
  (exists g' c', comp_set_base_part g c [1] [30] = Ok (g', c') /\ comp_evaluate evn evn c' 2 = Ok (3 + 20) /\
     comp_evaluate evn evn c' 1 = Ok (0 + 30)) /\
  comp_set_base_part g c [5] [30] = Abort /\
  (exists c', comp_modify_base g c [2] [40] = Ok (g, c') /\ comp_evaluate evn evn c' 2 = Ok (3 + 40) /\
     comp_evaluate evn evn c' 0 = Ok (0 + 10)).
Proof.
  destruct comp_exists as (g & c & Hn & Hc & Hg & Sb & Sk & Eb & Ek & Pb & Pk & Mb & Xb & Mk & Xk).
  assert (Tb : comp_base_times c = [0; 2]) by (unfold comp_base_times; now rewrite <- contents_times, Eb).
  assert (Nk : contents (s_mgr (c_corr c)) <> []) by (rewrite Ek; discriminate).
  assert (Nb : contents (s_mgr (c_base c)) <> []) by (rewrite Eb; discriminate).
  assert (Cov : base_covered c).
  { intros t. rewrite Tb, Mk, Xk. simpl. intros [<-|[<-|[]]]; lra. }
  assert (K0 : evn (c_corr c) 0 = Ok 0) by (apply pw_at; auto; [apply Sk|rewrite Ek; simpl; auto]).
  assert (K2 : evn (c_corr c) 2 = Ok 3) by (apply pw_at; auto; [apply Sk|rewrite Ek; simpl; auto]).
  assert (K1 : evn (c_corr c) 1 = Ok 0).
  { rewrite (pw_between nearer (c_corr c) [] 0 0 2 3 []); try apply Sk; auto; [|lra].
    unfold nearer. replace (nleb (1 - 0)%num (2 - 1)%num) with true; [reflexivity|]. symmetry. simpl. apply Rleb_le. lra. }
  assert (E0 : comp_evaluate evn evn c 0 = Ok (0 + 10)).
  { unfold comp_evaluate. rewrite K0. cbn [bind]. rewrite (pw_at nearer (c_base c) 0 10); auto; [apply Sb|rewrite Eb; simpl; auto]. }
  assert (E2 : comp_evaluate evn evn c 2 = Ok (3 + 20)).
  { unfold comp_evaluate. rewrite K2. cbn [bind]. rewrite (pw_at nearer (c_base c) 2 20); auto; [apply Sb|rewrite Eb; simpl; auto]. }
  exists g, c. split; [exact Sb|]. split; [apply Sk|]. split; [exact Nk|]. split; [exact Nb|]. split; [exact Cov|].
  split; [|split; [|split]].
  - intros show. destruct (C83_saved nearer nearer Hn Hn show seven (fun _ => eq_refl) c (proj1 Sb) (proj1 Sk) Nk) as [A _].
    destruct (A Nb Cov) as (rows & F & Hr & ->). rewrite Tb in F.
    destruct rows as [|[a x] [|[b y] [|? ?]]]; simpl in F; try discriminate. injection F as -> ->.
    destruct (Hr 0 x) as [X _]; [simpl; auto|]. destruct (Hr 2 y) as [Y _]; [simpl; auto|].
    rewrite E0 in X. rewrite E2 in Y. injection X as <-. injection Y as <-. reflexivity.
  - destruct (C84_set_base_part nearer nearer Hn g c [1] [30] Sb Nb eq_refl) as [A _]; [simpl; lia|].
    destruct A as (g' & c' & E & _ & _ & B & D).
    { rewrite Tb, Mk, Xk. split; [simpl; auto|]. split; [simpl; auto|]. simpl. intros t [<-|[<-|[<-|[]]]]; lra. }
    exists g', c'. split; [exact E|]. split.
    + rewrite D; [exact E2|rewrite Tb; simpl; auto|]. simpl. intros [X|[]]. lra.
    + rewrite (B 1 30); [now rewrite K1|]. simpl. replace (teq 1 1) with true by (symmetry; now apply teq_R). reflexivity.
  - destruct (C84_set_base_part nearer nearer Hn g c [5] [30] Sb Nb eq_refl) as [_ A]; [simpl; lia|].
    apply A. rewrite Tb, Mk, Xk. intros (_ & _ & X). destruct (X 5); [simpl; auto|lra].
  - destruct (C84_modify_base nearer nearer Hn g c [0] [2] [] [40] (proj1 Sb)) as [A _]; auto; [discriminate|].
    destruct A as (c' & E & _ & _ & _ & B & D); [unfold comp_min_time, comp_max_time; split; congruence|].
    exists c'. split; [exact E|]. split.
    + rewrite (B 2 40) by (simpl; auto). now rewrite K2.
    + rewrite D by (simpl; auto). exact E0.
Qed.

(** Discrete and slerp curves read their coefficients only. *)
Example C85_example : reads_coefficients (S := R) (V := R) evn /\ reads_coefficients (S := R) (V := R) slerp_evaluate.
Proof. split; [apply pw_reads|]. intros c c' t _. reflexivity. Qed.

Example C81_example : exists c : @slerp_curve R R, (1 <= size (s_mgr c))%nat.
Proof. destruct C82_example as (c & _ & _ & E & _). exists c. lia. Qed.

End Examples.
