(** The order of the latent factors does not matter in models with linear transitions (C97). *)
Require Import Reals Qreals Lra String Arith ZArith Bool Permutation Sorted List Lia FunctionalExtensionality.
From Verif Require Import PyBase ListFacts StringFacts ModelSpec ProcessModel CheckModel SpecModel ProcessModelFacts
  SpecParse SpecIndex IndexFacts SpecFacts ParamsIndex ParseParams ParseFacts AnchorFacts PropsParse ProcessData SpecData DataFacts PropsData
  RSum Kalman SpecKalman KalmanFacts PropsKalman Likelihood SpecLikelihood ScheduleFacts LikelihoodRun PropsFiltered SpecModelDensity
  LikelihoodFacts ExampleModels PropsSpec PropsLikelihood QRWitness PropsNumerics Renormalization PropsRenormalization
  TransitionFunctions TransitionFacts SpecTransition PropsTransition ModelDensityFacts
  Utilities SpecUtilities UtilitiesFacts ParamsVec ModelInputs Runs Related PropsPrefix PropsRemoved PropsControls PropsSwitch FactorOrder.
Import ListNotations.
Open Scope R_scope.

(** ** Vocabulary *)

(** The same specification, with the factors (and the anchored outcomes) listed in another
    order. *)
Definition reordered (md md' : model_dict) : Prop :=
  Permutation (md_factors md) (md_factors md') /\ Permutation (outcomes_of md) (outcomes_of md') /\
  ignores_constant md = ignores_constant md' /\
  observed_of md = observed_of md' /\ controls_of md = controls_of md' /\ md_options md = md_options md'.

(** Every factor has a linear transition function or stays constant. *)
Definition affine_model (md : model_dict) : Prop :=
  forall f fs, In (f, fs) (md_factors md) -> fs_transition fs = TStr "linear" \/ fs_transition fs = TStr "constant".

(** The covariance of two factors in element [e] of the initial mixture, from the
    parameters for its Cholesky factor (zero for labels the model does not have). *)
Definition initial_covariance (md : model_dict) (val : label -> R) (e : nat) (f g : string) : R :=
  sum_of (latent_of md) (fun h => val (CInitChol, O, mixture_name e, cov_name f h) * val (CInitChol, O, mixture_name e, cov_name g h)).

(** The same parameters by label and the same initial covariances. *)
Definition same_parameters (md md' : model_dict) (val val' : label -> R) : Prop :=
  (forall c t v x, c <> CInitChol -> val (c, t, v, x) = val' (c, t, v, x)) /\
  forall e f g, (e < n_mixtures_of md)%nat -> In f (latent_of md) -> In g (latent_of md) ->
    initial_covariance md val e f g = initial_covariance md' val' e f g.

(** Equation [k] is the last one of period [t]. *)
Definition last_of_period (md : model_dict) (n t k : nat) : Prop :=
  (exists v, nth_error (equations md n) k = Some (t, v)) /\
  forall j v, (k < j)%nat -> nth_error (equations md n) j <> Some (t, v).

(** The log likelihood contributions of the equations of period [t]. *)
Definition period_contribution (md : model_dict) (n : nat) (dbg : debug_output) (t i : nat) : R :=
  rsum (length (equations md n)) (fun k =>
    match nth_error (equations md n) k with
    | Some (u, _) => if (u =? t)%nat then do_all_contributions dbg k i else 0
    | None => 0
    end).

(** The standard deviations of the measurements and the loadings of the anchoring
    equations are not zero. *)
Definition regular_equations (md : model_dict) (n : nat) (val : label -> R) : Prop :=
  (forall t v, In (t, v) (equations md n) -> val (CMeasSds, t, v, "-"%string) <> 0) /\
  forall t f o, (t < n)%nat -> In (f, o) (outcomes_of md) -> val (CLoadings, t, (o ++ "_" ++ f)%string, f) <> 0.

(** Model, data and parameters fit together; all transition functions are linear or
    constant and anchoring is set up without conflicts. *)
Definition affine_setting (custom : string -> dict R -> dict R -> list R -> result R)
    (md : model_dict) (p : processed) (n : nat) (df : frame R) (ids lv : list Z) (ar : arrays R) (params : list R)
    (ps : parsed R) (val : label -> R) : Prop :=
  total_custom custom /\ likelihood_setting md p n df ids lv ar params ps /\ affine_model md /\
  clean_anchoring md /\ anchored_in_order md /\ every_period_measured md n /\
  (observed_of md = [] \/ n_mixtures_of md = 1%nat) /\ (1 <= n_mixtures_of md)%nat /\
  0 <= Q2R (o_sigma_points_scale (p_options p)) /\
  parameter_values (params_index_of p) params val /\ regular_equations md n val.

(** ** Equations of a period *)

Lemma split_filter {A B} (g : A -> B) (q : B -> bool) a b : forall l, map g l = a ++ b ->
  (forall x, In x a -> q x = false) -> (forall x, In x b -> q x = true) ->
  l = filter (fun x => negb (q (g x))) l ++ filter (fun x => q (g x)) l.
Proof.
  induction a as [|y a IH]; intros l E Ha Hb.
  - cbn [app] in E. subst b. rewrite (filter_all (fun x => q (g x))); [|intros x Hx; apply Hb, in_map, Hx].
    rewrite (filter_none (fun x => negb (q (g x)))); [reflexivity|]. intros x Hx. rewrite Hb; [reflexivity|now apply in_map].
  - destruct l as [|x l]; [discriminate|]. cbn [map app] in E. injection E as Ey E. cbn [filter].
    rewrite Ey, (Ha y) by now left. cbn [negb app]. f_equal. apply IH; [exact E| |exact Hb]. intros z Hz. apply Ha. now right.
Qed.

Section Equations.
  Variables (md : model_dict) (n : nat).
  Hypothesis Hclean : clean_anchoring md.

  Definition numbered (t : nat) : list (nat * (nat * string)) :=
    filter (fun ke => (fst (snd ke) =? t)%nat) (enumerate (equations md n)).
  Let anch (ke : nat * (nat * string)) : bool := is_anchoring_equation md (snd (snd ke)).
  Definition measured_equations (t : nat) : list nat := map fst (filter (fun ke => negb (anch ke)) (numbered t)).
  Definition anchor_equations (t : nat) : list nat := map fst (filter anch (numbered t)).

  Lemma period_names t : (t < n)%nat -> exists a b,
    map snd (numbered t) = a ++ b /\
    (forall e, In e a -> is_anchoring_equation md (snd e) = false) /\
    (forall e, In e b -> is_anchoring_equation md (snd e) = true).
  Proof.
    intros Ht. unfold numbered.
    assert (Em : forall (l : list (nat * string)), map snd (filter (fun ke => (fst (snd ke) =? t)%nat) (enumerate l)) = filter (fun e => (fst e =? t)%nat) l).
    { intros l. unfold enumerate. generalize O. induction l as [|x l IH]; intros s; [reflexivity|]. cbn [length seq combine filter snd].
      destruct (fst x =? t)%nat; cbn [map]; now rewrite IH. }
    rewrite Em. unfold equations. rewrite first_appearances_filter. unfold written_equations. rewrite filter_flat_map.
    set (W := fun p0 => flat_map (fun ffs => nth p0 (fs_measurements (snd ffs)) []) (md_factors md)).
    assert (Eo : forall p0, (W p0 ++ match md_anchoring md with
          | Some a => match as_outcomes a with
                      | Some outs => map (fun fo => (snd fo ++ "_" ++ fst fo)%string) outs
                      | None => []
                      end
          | None => []
          end) = W p0 ++ map fo_name (outcomes_of md)).
    { intros p0. f_equal. unfold outcomes_of. destruct (md_anchoring md) as [a|]; [|reflexivity]. destruct (as_outcomes a); reflexivity. }
    assert (Ef : flat_map (fun x => filter (fun e => (fst e =? t)%nat) (map (fun v => (x, v)) (W x ++ match md_anchoring md with
          | Some a => match as_outcomes a with
                      | Some outs => map (fun fo => (snd fo ++ "_" ++ fst fo)%string) outs
                      | None => []
                      end
          | None => []
          end))) (seq 0 n) = map (pair t) (W t) ++ map (pair t) (map fo_name (outcomes_of md))).
    { rewrite <- map_app. rewrite (flat_map_ext _ (fun x => if (x =? t)%nat then map (pair t) (W t ++ map fo_name (outcomes_of md)) else [])).
      - assert (G : forall m s, (s <= t < s + m)%nat -> flat_map (fun x => if (x =? t)%nat then map (pair t) (W t ++ map fo_name (outcomes_of md)) else []) (seq s m)
                  = map (pair t) (W t ++ map fo_name (outcomes_of md))).
        { clear. induction m as [|m IH]; intros s Hs; [lia|]. cbn [seq flat_map]. destruct (Nat.eqb_spec s t) as [->|N].
          - rewrite <- (app_nil_r (map (pair t) (W t ++ map fo_name (outcomes_of md)))) at 2. f_equal.
            assert (G : forall k a, (t < a)%nat -> flat_map (fun x => if (x =? t)%nat then map (pair t) (W t ++ map fo_name (outcomes_of md)) else []) (seq a k) = []).
            { clear. induction k as [|k IH]; intros a Ha; [reflexivity|]. cbn [seq flat_map]. destruct (Nat.eqb_spec a t); [lia|]. apply IH. lia. }
            apply G. lia.
          - apply IH. lia. }
        apply G. lia.
      - intros x. rewrite Eo. destruct (Nat.eqb_spec x t) as [->|N].
        + apply filter_all. intros e He. apply in_map_iff in He as (v & <- & _). apply Nat.eqb_refl.
        + apply filter_none. intros e He. apply in_map_iff in He as (v & <- & _). now apply Nat.eqb_neq. }
    match goal with |- context [first_appearances equation_eq_dec ?X] =>
      replace X with (map (pair t) (W t) ++ map (pair t) (map fo_name (outcomes_of md))) by (symmetry; exact Ef) end.
    destruct (first_appearances_app equation_eq_dec (map (pair t) (W t)) (map (pair t) (map fo_name (outcomes_of md)))) as (rest & E & I).
    exists (first_appearances equation_eq_dec (map (pair t) (W t))), rest. split; [exact E|]. split.
    - intros e He. apply In_first_appearances, in_map_iff in He as (v & <- & Hv). cbn [snd].
      destruct (is_anchoring_equation md v) eqn:Ea; [|reflexivity]. exfalso. unfold is_anchoring_equation in Ea.
      apply existsb_exists in Ea as (w & Hw & Ew). apply String.eqb_eq in Ew. subst w. apply in_map_iff in Hw as ([f o] & <- & Hfo).
      destruct Hclean as (_ & _ & Hno). unfold W in Hv. apply in_flat_map in Hv as ([g fs] & Hg & Hv). cbn [snd] in Hv.
      apply (Hno t f o g Hfo). exists fs, (nth t (fs_measurements fs) []). split; [exact Hg|]. split; [|exact Hv].
      apply nth_error_nth'. destruct (Nat.lt_ge_cases t (length (fs_measurements fs))) as [L|L]; [exact L|].
      rewrite nth_overflow in Hv by exact L. destruct Hv.
    - intros e He. apply I, in_map_iff in He as (v & <- & Hv). cbn [snd]. unfold is_anchoring_equation. apply existsb_exists.
      exists v. split; [|apply String.eqb_refl]. exact Hv.
  Qed.

  Lemma period_split t : (t < n)%nat -> numbered t = filter (fun ke => negb (anch ke)) (numbered t) ++ filter anch (numbered t).
  Proof.
    intros Ht. destruct (period_names t Ht) as (a & b & E & Ha & Hb).
    exact (split_filter snd (fun e => is_anchoring_equation md (snd e)) a b (numbered t) E Ha Hb).
  Qed.

  Lemma period_events_list t : (t < n)%nat ->
    period_events md n t = map (block_event t) (period_list (measured_equations t) (anchor_equations t)).
  Proof.
    intros Ht. unfold period_events. fold (numbered t). rewrite (period_split t Ht) at 1. unfold period_list, measured_equations, anchor_equations.
    rewrite !map_app, !map_map. f_equal; apply map_ext_in; intros ke Hke; apply filter_In in Hke as [_ Hke]; unfold anch in Hke; unfold block_event; cbn [fst snd].
    - now destruct (is_anchoring_equation md (snd (snd ke))).
    - now rewrite Hke.
  Qed.

  Lemma schedule_periods : schedule md n = periods n measured_equations anchor_equations (seq 0 n).
  Proof.
    unfold schedule, periods. assert (G : forall l, (forall t, In t l -> (t < n)%nat) ->
      flat_map (fun t => period_events md n t ++ (if (t + 1 <? n)%nat then [Transition t] else [])) l
      = flat_map (fun t => map (block_event t) (period_list (measured_equations t) (anchor_equations t)) ++ (if (t + 1 <? n)%nat then [Transition t] else [])) l).
    { induction l as [|t l IH]; intros Hl; [reflexivity|]. cbn [flat_map]. rewrite period_events_list by (apply Hl; now left). f_equal.
      apply IH. intros u Hu. apply Hl. now right. }
    apply G. intros t Ht. apply in_seq in Ht. lia.
  Qed.

  Lemma numbered_spec t ke : In ke (numbered t) <-> exists k v, ke = (k, (t, v)) /\ nth_error (equations md n) k = Some (t, v).
  Proof.
    unfold numbered. rewrite filter_In. destruct ke as [k [u v]]. unfold enumerate. rewrite combine_seq_nth, Nat.sub_0_r. cbn [fst snd]. split.
    - intros [[_ E] Eu]. apply Nat.eqb_eq in Eu. subst u. eauto.
    - intros (k' & v' & E & Hk). injection E as -> -> ->. split; [split; [lia|exact Hk]|apply Nat.eqb_refl].
  Qed.

  (** The equations of a period by number and by name. *)
  Lemma period_equation_spec (q : string -> bool) t k :
    In k (map fst (filter (fun ke : nat * (nat * string) => q (snd (snd ke))) (numbered t)))
    <-> exists v, nth_error (equations md n) k = Some (t, v) /\ q v = true.
  Proof.
    rewrite in_map_iff. split.
    - intros (ke & <- & Hke). apply filter_In in Hke as [Hke Hq]. apply numbered_spec in Hke as (k' & v & -> & Hk). eauto.
    - intros (v & Hk & Hq). exists (k, (t, v)). split; [reflexivity|]. apply filter_In. split; [|exact Hq]. apply numbered_spec. eauto.
  Qed.

  Lemma numbered_NoDup q t : NoDup (map fst (filter q (numbered t))).
  Proof.
    unfold numbered. assert (G : forall (l : list (nat * (nat * string))) q, NoDup (map fst l) -> NoDup (map fst (filter q l))).
    { clear. induction l as [|x l IH]; intros q Hn; [constructor|]. apply NoDup_cons_iff in Hn as [Hx Hn]. cbn [filter].
      destruct (q x); [|now apply IH]. cbn [map]. constructor; [|now apply IH]. intros F. apply Hx. apply in_map_iff in F as (y & E & Hy).
      apply filter_In in Hy as [Hy _]. rewrite <- E. now apply in_map. }
    apply G, G. unfold enumerate. assert (E : forall (l : list (nat * string)) s, map fst (combine (seq s (length l)) l) = seq s (length l)).
    { clear. induction l as [|x l IH]; intros s; [reflexivity|]. cbn [length seq combine map fst]. now rewrite IH. }
    rewrite E. apply seq_NoDup.
  Qed.
End Equations.

(** ** The two models *)

Lemma existsb_incl {A} (q : A -> bool) l l' : (forall x, In x l <-> In x l') -> existsb q l = existsb q l'.
Proof.
  intros Hl. destruct (existsb q l) eqn:E, (existsb q l') eqn:E'; try reflexivity; exfalso.
  - apply existsb_exists in E as (x & Hx & Hq). assert (F : existsb q l' = true) by (apply existsb_exists; exists x; split; [now apply Hl|exact Hq]). congruence.
  - apply existsb_exists in E' as (x & Hx & Hq). assert (F : existsb q l = true) by (apply existsb_exists; exists x; split; [now apply Hl|exact Hq]). congruence.
Qed.

Lemma existsb_same {A} (q q' : A -> bool) l : (forall x, q x = q' x) -> existsb q l = existsb q' l.
Proof. intros Hq. induction l as [|x l IH]; [reflexivity|]. cbn [existsb]. now rewrite Hq, IH. Qed.

Lemma find_permutation {A} (name : A -> string) l l' x : NoDup (map name l) -> Permutation l l' ->
  find (fun a => String.eqb x (name a)) l = find (fun a => String.eqb x (name a)) l'.
Proof.
  intros Hn P. destruct (find _ l) as [a|] eqn:E, (find _ l') as [b|] eqn:E'; [| | |reflexivity].
  - apply find_some in E as [Ha Ea], E' as [Hb Eb]. apply String.eqb_eq in Ea, Eb. f_equal.
    apply (Permutation_in _ (Permutation_sym P)) in Hb. rewrite Ea in Eb. clear -Hn Ha Hb Eb.
    induction l as [|c l IH]; [destruct Ha|]. cbn [map] in Hn. apply NoDup_cons_iff in Hn as [Hc Hn].
    destruct Ha as [->|Ha], Hb as [->|Hb]; [reflexivity| | |now apply IH].
    + destruct Hc. rewrite Eb. now apply in_map.
    + destruct Hc. rewrite <- Eb. now apply in_map.
  - exfalso. apply find_some in E as [Ha Ea]. apply (Permutation_in _ P) in Ha. now rewrite (find_none _ _ E' _ Ha) in Ea.
  - exfalso. apply find_some in E' as [Ha Ea]. apply (Permutation_in _ (Permutation_sym P)) in Ha. now rewrite (find_none _ _ E _ Ha) in Ea.
Qed.

Section Names.
  Variables (md md' : model_dict) (n : nat).
  Hypothesis Hre : reordered md md'.
  Hypothesis Hclean : clean_anchoring md.
  Hypothesis Hnd : NoDup (latent_of md).

  Lemma latent_perm : Permutation (latent_of md) (latent_of md').
  Proof. unfold latent_of. apply Permutation_map, Hre. Qed.

  Lemma latent_length : length (latent_of md) = length (latent_of md').
  Proof. apply Permutation_length, latent_perm. Qed.

  Lemma latent_NoDup : NoDup (latent_of md').
  Proof. apply (Permutation_NoDup latent_perm Hnd). Qed.

  (** Where a factor of the second model is in the first one. *)
  Definition place (a : nat) : nat :=
    match position (nth a (latent_of md') ""%string) (latent_of md) with Some k => k | None => O end.

  Lemma place_spec a : (a < length (latent_of md))%nat ->
    (place a < length (latent_of md))%nat /\ nth (place a) (latent_of md) ""%string = nth a (latent_of md') ""%string.
  Proof.
    intros Ha. unfold place. set (f := nth a (latent_of md') ""%string).
    assert (Hf : In f (latent_of md)).
    { apply (Permutation_in _ (Permutation_sym latent_perm)). apply nth_In. now rewrite <- latent_length. }
    apply In_nth_error in Hf as [k Hk]. rewrite (position_nth _ _ k Hnd Hk).
    split; [apply nth_error_Some; congruence|]. now apply nth_of_nth_error.
  Qed.

  Lemma place_reordering : reordering (length (latent_of md)) place.
  Proof.
    split; [intros a Ha; now apply place_spec|]. intros a b Ha Hb E.
    destruct (place_spec a Ha) as [_ A], (place_spec b Hb) as [_ B]. rewrite E, B in A.
    assert (D := latent_NoDup). rewrite (NoDup_nth _ ""%string) in D. rewrite latent_length in Ha, Hb. symmetry. now apply D.
  Qed.

  Lemma names_anchoring v : is_anchoring_equation md v = is_anchoring_equation md' v.
  Proof.
    unfold is_anchoring_equation. apply existsb_incl. intros x. destruct Hre as (_ & P & _).
    split; apply Permutation_in, Permutation_map; [exact P|now apply Permutation_sym].
  Qed.

  Lemma written_In m t v : In (t, v) (written_equations m n) <->
    (t < n)%nat /\ ((exists ffs, In ffs (md_factors m) /\ In v (nth t (fs_measurements (snd ffs)) [])) \/ In v (map fo_name (outcomes_of m))).
  Proof.
    unfold written_equations. rewrite in_flat_map. split.
    - intros (t' & Ht & Hin). apply in_seq in Ht. apply in_map_iff in Hin as (w & E & Hin). injection E as -> ->. split; [lia|].
      apply in_app_or in Hin as [Hin|Hin]; [left; now apply in_flat_map in Hin|right].
      unfold outcomes_of. destruct (md_anchoring m) as [a|]; [|destruct Hin]. destruct (as_outcomes a); [exact Hin|destruct Hin].
    - intros [Ht Hin]. exists t. split; [apply in_seq; lia|]. apply in_map. apply in_or_app.
      destruct Hin as [Hin|Hin]; [left; now apply in_flat_map|right].
      unfold outcomes_of in Hin. destruct (md_anchoring m) as [a|]; [|destruct Hin]. destruct (as_outcomes a); [exact Hin|destruct Hin].
  Qed.

  Lemma equations_In e : In e (equations md n) <-> In e (equations md' n).
  Proof.
    unfold equations. rewrite !In_first_appearances. destruct e as [t v]. rewrite !written_In.
    destruct Hre as (P1 & P2 & _).
    assert (A : (exists ffs, In ffs (md_factors md) /\ In v (nth t (fs_measurements (snd ffs)) [])) <->
                (exists ffs, In ffs (md_factors md') /\ In v (nth t (fs_measurements (snd ffs)) []))).
    { split; intros (ffs & Hf & Hv); exists ffs; (split; [|exact Hv]); [apply (Permutation_in _ P1)|apply (Permutation_in _ (Permutation_sym P1))]; exact Hf. }
    assert (B : In v (map fo_name (outcomes_of md)) <-> In v (map fo_name (outcomes_of md'))).
    { split; apply Permutation_in, Permutation_map; [exact P2|now apply Permutation_sym]. }
    now rewrite A, B.
  Qed.

  Lemma clean_reordered : clean_anchoring md'.
  Proof.
    destruct Hclean as (A & B & C). destruct Hre as (P1 & P2 & _). split; [|split].
    - intros f o Hfo. apply (Permutation_in _ latent_perm). apply (A f o), (Permutation_in _ (Permutation_sym P2)), Hfo.
    - apply (Permutation_NoDup (Permutation_map _ P2) B).
    - intros t f o g Hfo (fs & ms & Hin & Hm). apply (C t f o g); [apply (Permutation_in _ (Permutation_sym P2)), Hfo|].
      exists fs, ms. split; [apply (Permutation_in _ (Permutation_sym P1)), Hin|exact Hm].
  Qed.

  Lemma value_reordered df lv id t x : value 1 md df lv id t x = value 1 md' df lv id t x.
  Proof.
    unfold value, data_value. destruct Hre as (_ & P & _).
    rewrite (find_permutation copy_name (outcomes_of md) (outcomes_of md') x); [reflexivity| |exact P]. apply Hclean.
  Qed.

  Lemma given_reordered df lv id t x : given_value md n df lv id t x = given_value md' n df lv id t x.
  Proof.
    unfold given_value. rewrite value_reordered. destruct Hre as (_ & _ & _ & _ & <- & _).
    rewrite (existsb_same _ (fun c => is_missing (value 1 md' df lv id t c))) by (intros c; now rewrite value_reordered).
    rewrite (existsb_incl _ (equations md n) (equations md' n) equations_In).
    rewrite (existsb_same (fun e => (fst e =? t)%nat && negb (is_missing (value 1 md df lv id t (snd e))))
      (fun e => (fst e =? t)%nat && negb (is_missing (value 1 md' df lv id t (snd e))))) by (intros e; now rewrite value_reordered).
    reflexivity.
  Qed.

  (** The equations of the second model that correspond to a list of equations of the
      first one. *)
  Lemma corresponding (q : string -> bool) (q' : string -> bool) t : (forall v, q v = q' v) -> exists l,
    Permutation l (map fst (filter (fun ke : nat * (nat * string) => q' (snd (snd ke))) (numbered md' n t))) /\
    Forall2 (fun k k' => exists v, nth_error (equations md n) k = Some (t, v) /\ nth_error (equations md' n) k' = Some (t, v) /\ q v = true)
      (map fst (filter (fun ke : nat * (nat * string) => q (snd (snd ke))) (numbered md n t))) l.
  Proof.
    intros Hq.
    set (l1 := map fst (filter (fun ke : nat * (nat * string) => q (snd (snd ke))) (numbered md n t))).
    set (l2 := map fst (filter (fun ke : nat * (nat * string) => q' (snd (snd ke))) (numbered md' n t))).
    set (e1 := fun k => nth k (equations md n) (O, ""%string)). set (e2 := fun k => nth k (equations md' n) (O, ""%string)).
    assert (A1 : forall k, In k l1 <-> exists v, nth_error (equations md n) k = Some (t, v) /\ q v = true) by (intros k; apply period_equation_spec).
    assert (A2 : forall k, In k l2 <-> exists v, nth_error (equations md' n) k = Some (t, v) /\ q' v = true) by (intros k; apply period_equation_spec).
    assert (E1 : forall k v, nth_error (equations md n) k = Some (t, v) -> e1 k = (t, v)) by (intros k v E; now apply nth_of_nth_error).
    assert (E2 : forall k v, nth_error (equations md' n) k = Some (t, v) -> e2 k = (t, v)) by (intros k v E; now apply nth_of_nth_error).
    assert (N1 : NoDup (equations md n)) by (apply ProcessModelFacts.NoDup_first_appearances).
    assert (N2 : NoDup (equations md' n)) by (apply ProcessModelFacts.NoDup_first_appearances).
    assert (P : Permutation (map e1 l1) (map e2 l2)).
    { apply NoDup_Permutation.
      - apply NoDup_map_in; [|apply numbered_NoDup]. intros k k' Hk Hk' E. apply A1 in Hk as (v & Hk & _), Hk' as (v' & Hk' & _).
        rewrite (E1 _ _ Hk), (E1 _ _ Hk') in E. rewrite E in Hk. rewrite <- Hk' in Hk.
        apply (proj1 (NoDup_nth_error _) N1) in Hk; [exact Hk|]. apply nth_error_Some. congruence.
      - apply NoDup_map_in; [|apply numbered_NoDup]. intros k k' Hk Hk' E. apply A2 in Hk as (v & Hk & _), Hk' as (v' & Hk' & _).
        rewrite (E2 _ _ Hk), (E2 _ _ Hk') in E. rewrite E in Hk. rewrite <- Hk' in Hk.
        apply (proj1 (NoDup_nth_error _) N2) in Hk; [exact Hk|]. apply nth_error_Some. congruence.
      - intros e. rewrite !in_map_iff. split.
        + intros (k & <- & Hk). apply A1 in Hk as (v & Hk & Hv). rewrite (E1 _ _ Hk).
          apply nth_error_In, equations_In, In_nth_error in Hk as [k' Hk']. exists k'. split; [now apply E2|]. apply A2. exists v. split; [exact Hk'|]. rewrite <- Hq. exact Hv.
        + intros (k & <- & Hk). apply A2 in Hk as (v & Hk & Hv). rewrite (E2 _ _ Hk).
          apply nth_error_In, equations_In, In_nth_error in Hk as [k' Hk']. exists k'. split; [now apply E1|]. apply A1. exists v. split; [exact Hk'|]. rewrite Hq. exact Hv. }
    destruct (Permutation_map_inv _ _ P) as (l & E & Pl). exists l. split; [now apply Permutation_sym|].
    assert (Hl : forall k, In k l -> exists v, nth_error (equations md' n) k = Some (t, v) /\ q' v = true).
    { intros k Hk. apply A2. now apply (Permutation_in _ (Permutation_sym Pl)). }
    assert (Hl1 : forall k, In k l1 -> exists v, nth_error (equations md n) k = Some (t, v) /\ q v = true) by (intros k; apply A1).
    clear -E Hl Hl1 E1 E2. revert l E Hl. induction l1 as [|k l1 IH]; intros [|k' l] E Hl; try discriminate E; [constructor|].
    cbn [map] in E. injection E as Ek E. constructor.
    - destruct (Hl1 k (or_introl eq_refl)) as (v & Hk & Hv), (Hl k' (or_introl eq_refl)) as (v' & Hk' & _).
      rewrite (E1 _ _ Hk), (E2 _ _ Hk') in Ek. injection Ek as ->. eauto.
    - apply IH; [intros j Hj; apply Hl1; now right|exact E|intros j Hj; apply Hl; now right].
  Qed.
End Names.

(** ** One model by label *)

Definition stays_constant (md : model_dict) (f : string) : bool :=
  existsb (fun ffs => String.eqb (fst ffs) f && match fs_transition (snd ffs) with TStr s => String.eqb s "constant" | _ => false end)
    (md_factors md).

Section ByLabel.
  Variables (md : model_dict) (p : processed) (n : nat) (df : frame R) (ids lv : list Z) (ar : arrays R)
    (params : list R) (ps : parsed R) (val : label -> R).
  Hypothesis H : likelihood_setting md p n df ids lv ar params ps.
  Hypothesis Hval : parameter_values (params_index_of p) params val.
  Hypothesis Haff : affine_model md.
  Hypothesis Hclean : clean_anchoring md.
  Hypothesis Hord : anchored_in_order md.
  Variables (nan neg_inf : R) (custom : string -> dict R -> dict R -> list R -> result R).
  Hypothesis Hcustom : total_custom custom.

  Let Hwf : wf_dicts md. Proof. apply H. Qed.
  Let Hp : process_model md = Ok p. Proof. apply H. Qed.
  Let Hn : has_n_periods md n. Proof. apply H. Qed.
  Let Hg : good_names md. Proof. apply H. Qed.
  Let Hlen : length params = length (params_index_of p). Proof. apply H. Qed.
  Let Hps : parse_for 0 1 ln p params (length ids) = Ok ps. Proof. apply H. Qed.
  Let inp := inputs_of ps ar.
  Let nl := length (latent_of md).
  Let no := length (observed_of md).
  Let all := latent_of md ++ observed_of md.

  Lemma label_value lb x : labelled (params_index_of p) params lb x -> x = val lb.
  Proof.
    intros L. assert (Hin : In lb (params_index_of p)) by (destruct L as (j & Hj & _); eapply nth_error_In, Hj).
    exact (labelled_fun _ _ _ _ _ (idx_NoDup md p Hwf Hg Hp) L (proj1 Hval lb Hin)).
  Qed.

  Lemma anchored_outcome f o : anchored md f o <-> In (f, o) (outcomes_of md).
  Proof.
    unfold anchored, outcomes_of. split.
    - intros (a & outs & -> & -> & Hin). exact Hin.
    - destruct (md_anchoring md) as [a|]; [|intros []]. destruct (as_outcomes a) as [outs|] eqn:E; [|intros []]. intros Hin. eauto.
  Qed.

  Lemma anchoring_by_name t j f : (t < n)%nat -> nth_error all j = Some f ->
    (forall o, In (f, o) (outcomes_of md) -> in_scaling inp t j = val (CLoadings, t, fo_name (f, o), f) /\
       in_constants inp t j = if ignores_constant md then 0 else val (CControls, t, fo_name (f, o), "constant"%string)) /\
    ((forall o, ~ In (f, o) (outcomes_of md)) -> in_scaling inp t j = 1 /\ in_constants inp t j = 0).
  Proof.
    intros Ht Hj.
    destruct (C12_anchoring_factors_partial R 0 1 ln md p n (length ids) params ps Hwf Hg Hp Hn Hlen Hps Hclean Hord) as (_ & _ & C12).
    destruct (C12 t j f Ht Hj) as (x & c & (row & Hr & Hx) & (row' & Hr' & Hc) & A & B & C & D).
    unfold inp, inputs_of, arr2, arr1. cbn [in_scaling in_constants].
    rewrite (nth_of_nth_error _ _ _ _ Hr), (nth_of_nth_error _ _ _ _ Hx), (nth_of_nth_error _ _ _ _ Hr'), (nth_of_nth_error _ _ _ _ Hc).
    split.
    - intros o Ho. apply anchored_outcome in Ho. split; [exact (label_value _ _ (A o Ho))|].
      destruct (ignores_constant md) eqn:E; [apply D; now right|]. exact (label_value _ _ (B o Ho eq_refl)).
    - intros Hno. assert (Hno' : forall o, ~ anchored md f o) by (intros o F; now apply (Hno o), anchored_outcome).
      split; [now apply C|]. apply D. now left.
  Qed.

  Definition coefficient_of (t f g : nat) : R :=
    if stays_constant md (nth f (latent_of md) ""%string) then (if Nat.eqb g f then 1 else 0)
    else val (CTransition, t, nth f (latent_of md) ""%string, nth g all ""%string).
  Definition intercept_of (t f : nat) : R :=
    if stays_constant md (nth f (latent_of md) ""%string) then 0
    else val (CTransition, t, nth f (latent_of md) ""%string, "constant"%string).

  Lemma stays_constant_spec f fs : In (f, fs) (md_factors md) -> stays_constant md f = true <-> fs_transition fs = TStr "constant".
  Proof.
    intros Hin. unfold stays_constant. rewrite existsb_exists. split.
    - intros ([g gs] & Hg' & E). cbn [fst snd] in E. apply andb_prop in E as [E1 E2]. apply String.eqb_eq in E1. subst g.
      assert (E : Some gs = Some fs).
      { rewrite <- (In_dget (md_factors md) f gs), <- (In_dget (md_factors md) f fs); try assumption; try apply Hwf. reflexivity. }
      injection E as ->. destruct (fs_transition fs); [|discriminate|discriminate]. apply String.eqb_eq in E2. now subst.
    - intros E. exists (f, fs). split; [exact Hin|]. cbn [fst snd]. now rewrite E, !String.eqb_refl.
  Qed.

  Lemma affine_form t : (t + 1 < n)%nat -> forall v f, (f < nl)%nat ->
    model_tfunc nan neg_inf custom md (p_labels p) (in_coeffs inp t) v f
    = rsum (nl + no) (fun g => coefficient_of t f g * v g) + intercept_of t f.
  Proof.
    intros Ht v f Hf. set (name := nth f (latent_of md) ""%string).
    assert (Hnf : nth_error (latent_of md) f = Some name) by (apply nth_error_nth'; exact Hf).
    assert (Hin : In name (latent_of md)) by (eapply nth_error_In, Hnf).
    unfold latent_of in Hin. apply in_map_iff in Hin as ([g fs] & Ef & Hin). cbn [fst] in Ef. rewrite Ef in Hin. clear g Ef.
    set (state := fun g => match position g all with Some k => v k | None => 0 end).
    assert (Hs : forall k g, nth_error all k = Some g -> state g = v k).
    { intros k g Hk. unfold state. now rewrite (position_nth all g k (proj1 Hg) Hk). }
    destruct (C57_model_transition nan neg_inf custom Hcustom md p n (length ids) params ps ar Hwf Hg Hp Hn Hlen Hps
      t f name fs v (fun x => val (CTransition, t, name, x)) state Ht Hnf Hin) as [A _].
    { intros x Hx. apply (proj1 Hval). apply (In_params_index md p _ Hwf Hp). now apply (par_transition md t n name fs). }
    { exact Hs. }
    fold inp in A. cbv zeta in A. unfold coefficient_of, intercept_of. fold name. destruct (Haff name fs Hin) as [E|E].
    - destruct (stays_constant md name) eqn:Es; [apply (stays_constant_spec name fs Hin) in Es; congruence|].
      rewrite (A "linear"%string _ E (doc_linear _ _ _ _)). unfold linear_formula, linear_part. rewrite (sum_of_rsum ""%string), app_length.
      f_equal. apply rsum_ext. intros k Hk. fold all. f_equal. apply Hs. apply nth_error_nth'. unfold all. now rewrite app_length.
    - rewrite (proj2 (stays_constant_spec name fs Hin) E). rewrite (A "constant"%string _ E (doc_constant _ _ _ _)).
      rewrite (rsum_single _ f); [|unfold nl in *; lia|].
      + rewrite Nat.eqb_refl, (Hs f name); [ring|]. unfold all. now rewrite nth_error_app1.
      + intros k _ N. apply Nat.eqb_neq in N. rewrite N. ring.
  Qed.

  Variable i : nat.
  Hypothesis Hi : (i < length ids)%nat.

  Lemma initial_by_name e : (e < n_mixtures_of md)%nat ->
    be_logw (initial_belief ps) i e = ln (val (CMixWeights, O, mixture_name e, "-"%string)) /\
    (forall j, (j < nl)%nat -> be_states (initial_belief ps) i e j = val (CInitStates, O, mixture_name e, nth j (latent_of md) ""%string)) /\
    forall a b, (a < nl)%nat -> (b < nl)%nat ->
      cov nl (be_chols (initial_belief ps) i e) a b
      = initial_covariance md val e (nth a (latent_of md) ""%string) (nth b (latent_of md) ""%string).
  Proof.
    intros He. rewrite (initial_form md p n df ids lv ar params ps val H Hval). cbn [be_logw be_states be_chols].
    assert (Er : forall A (x : A) d, nth i (repeat x (length ids)) d = x).
    { intros A x d. apply nth_of_nth_error. now apply nth_error_repeat. }
    assert (Em : forall A (g : nat -> A) d, nth e (map g (range (n_mixtures_of md))) d = g e) by (intros A g d; now apply nth_map_seq).
    assert (El : forall (g : string -> R) j, (j < nl)%nat -> nth j (map g (latent_of md)) 0 = g (nth j (latent_of md) ""%string)).
    { intros g j Hj. apply nth_of_nth_error, map_nth_error, nth_error_nth'. exact Hj. }
    split; [|split].
    - unfold arr2, arr1. now rewrite Er, Em.
    - intros j Hj. unfold arr3, arr2, arr1. rewrite Er, Em. now apply El.
    - intros a b Ha Hb. unfold cov, initial_covariance. rewrite (sum_of_rsum ""%string). apply rsum_ext. intros r Hr.
      assert (G : forall c, (c < nl)%nat -> arr4 (repeat (map (fun e0 => map (fun r0 => map (fun c0 =>
          if (r0 <=? c0)%nat then val (CInitChol, O, mixture_name e0,
                              cov_name (nth c0 (latent_of md) ""%string) (nth r0 (latent_of md) ""%string)) else 0)
        (seq 0 (length (latent_of md)))) (seq 0 (length (latent_of md)))) (range (n_mixtures_of md))) (length ids)) i e r c
        = val (CInitChol, O, mixture_name e, cov_name (nth c (latent_of md) ""%string) (nth r (latent_of md) ""%string))).
      { intros c Hc. unfold arr4, arr3, arr2, arr1. rewrite Er, Em, nth_map_seq by exact Hr. rewrite nth_map_seq by exact Hc.
        destruct (Nat.leb_spec r c) as [L|L]; [reflexivity|]. symmetry. apply (proj2 Hval). rewrite (In_params_index md p _ Hwf Hp).
        intros P. assert (Q : exists row col frow fcol, nth_error (latent_of md) row = Some frow /\ nth_error (latent_of md) col = Some fcol /\
            (col <= row)%nat /\ cov_name frow fcol = cov_name (nth c (latent_of md) ""%string) (nth r (latent_of md) ""%string)).
        { inversion P. eauto 10. }
        destruct Q as (row & col & frow & fcol & Hrow & Hcol & Hle & E2).
        assert (D := proj1 (proj2 Hg)).
        apply cov_name_inj in E2 as [E2 E3]; [|apply D; eapply nth_error_In, Hrow|apply D, nth_In, Hc].
        assert (N : NoDup (latent_of md)) by (destruct Hg as [Hnd _]; now apply NoDup_app_l in Hnd).
        assert (Ic : row = c).
        { apply (proj1 (NoDup_nth_error _) N); [apply nth_error_Some; congruence|]. rewrite Hrow, E2. symmetry. now apply nth_error_nth'. }
        assert (Ir : col = r).
        { apply (proj1 (NoDup_nth_error _) N); [apply nth_error_Some; congruence|]. rewrite Hcol, E3. symmetry. now apply nth_error_nth'. }
        lia. }
      now rewrite (G a Ha), (G b Hb).
  Qed.
End ByLabel.

(** ** Records by period *)

Lemma sorted_head {A} (key : A -> nat) s l : StronglySorted le (map key l) -> (forall x, In x l -> (s <= key x)%nat) ->
  l = filter (fun x => (key x =? s)%nat) l ++ filter (fun x => negb (key x =? s)%nat) l.
Proof.
  induction l as [|x l IH]; intros Hs Hl; [reflexivity|]. cbn [map] in Hs. inversion_clear Hs as [|? ? Hs' Hx]. cbn [filter].
  destruct (Nat.eqb_spec (key x) s) as [E|N]; cbn [negb].
  - cbn [app]. f_equal. apply IH; [exact Hs'|]. intros y Hy. apply Hl. now right.
  - rewrite Forall_forall in Hx. rewrite filter_none, filter_all; [reflexivity| |].
    + intros y Hy. apply negb_true_iff, Nat.eqb_neq. specialize (Hx (key y) (in_map key _ _ Hy)). specialize (Hl x (or_introl eq_refl)). lia.
    + intros y Hy. apply Nat.eqb_neq. specialize (Hx (key y) (in_map key _ _ Hy)). specialize (Hl x (or_introl eq_refl)). lia.
Qed.

Lemma sorted_blocks {A} (key : A -> nat) m : forall s l, StronglySorted le (map key l) ->
  (forall x, In x l -> (s <= key x < s + m)%nat) ->
  flat_map (fun t => filter (fun x => (key x =? t)%nat) l) (seq s m) = l.
Proof.
  induction m as [|m IH]; intros s l Hs Hl.
  - destruct l as [|x l]; [reflexivity|]. specialize (Hl x (or_introl eq_refl)). lia.
  - cbn [seq flat_map]. transitivity (filter (fun x => (key x =? s)%nat) l ++ filter (fun x => negb (key x =? s)%nat) l);
      [|symmetry; apply (sorted_head key s l Hs); intros x Hx; apply Hl, Hx]. f_equal.
    rewrite <- (IH (S s) (filter (fun x => negb (key x =? s)%nat) l)).
    + apply flat_map_ext_in. intros t Ht. apply in_seq in Ht. rewrite filter_filter_comm. symmetry. apply filter_all.
      intros x Hx. apply filter_In in Hx as [_ Hx]. apply Nat.eqb_eq in Hx. apply negb_true_iff, Nat.eqb_neq. lia.
    + now apply sorted_map_filter.
    + intros x Hx. apply filter_In in Hx as [Hx Hk]. apply negb_true_iff, Nat.eqb_neq in Hk. specialize (Hl x Hx). lia.
Qed.

Lemma concat_inj {A} (a : list (list A)) : forall b, map (@length A) a = map (@length A) b -> concat a = concat b -> a = b.
Proof.
  induction a as [|x a IH]; intros [|y b] L E; try discriminate L; [reflexivity|]. cbn [map concat] in L, E. injection L as Lx L.
  assert (x = y).
  { rewrite <- (firstn_all x), <- (firstn_all y), <- Lx. apply (f_equal (firstn (length x))) in E.
    rewrite !firstn_app, Nat.sub_diag, <- Lx, Nat.sub_diag in E. cbn [firstn] in E. now rewrite !app_nil_r in E. }
  subst y. apply app_inv_head in E. f_equal. now apply IH.
Qed.

Lemma map_nth_all {A} (l : list A) d : map (fun k => nth k l d) (seq 0 (length l)) = l.
Proof.
  apply (nth_ext _ _ d d); [now rewrite map_length, seq_length|]. rewrite map_length, seq_length. intros k Hk.
  now rewrite (nth_map_seq (fun k => nth k l d) (length l) k d Hk).
Qed.

Section RecordBlocks.
  Variables (md : model_dict) (n : nat).

  Lemma enumerate_fst {A} (l : list A) : map fst (enumerate l) = seq 0 (length l).
  Proof.
    unfold enumerate. generalize O. induction l as [|x l IH]; intros s; [reflexivity|]. cbn [length seq combine map fst]. now rewrite IH.
  Qed.

  Lemma enumerate_snd {A} (l : list A) : map snd (enumerate l) = l.
  Proof.
    unfold enumerate. generalize O. induction l as [|x l IH]; intros s; [reflexivity|]. cbn [length seq combine map snd]. now rewrite IH.
  Qed.

  Lemma numbered_all : flat_map (numbered md n) (seq 0 n) = enumerate (equations md n).
  Proof.
    unfold numbered. apply (sorted_blocks (fun ke : nat * (nat * string) => fst (snd ke))).
    - rewrite <- (map_map snd fst), enumerate_snd. apply equations_sorted.
    - intros [k [t v]] Hin. cbn [fst snd]. split; [lia|]. apply (equations_period md n t v).
      rewrite <- (enumerate_snd (equations md n)). apply (in_map snd _ _ Hin).
  Qed.

  Lemma record_blocks {A} (recs : list A) blocks d : length recs = length (equations md n) -> recs = concat blocks ->
    map (@length A) blocks = map (fun t => length (numbered md n t)) (seq 0 n) ->
    blocks = map (fun t => map (fun ke => nth (fst ke) recs d) (numbered md n t)) (seq 0 n).
  Proof.
    intros L E M. apply concat_inj.
    - rewrite M, map_map. apply map_ext. intros t. now rewrite map_length.
    - rewrite <- E, <- flat_map_concat_map.
      assert (G : forall l, flat_map (fun t => map (fun ke => nth (fst ke) recs d) (numbered md n t)) l
                  = map (fun ke => nth (fst ke) recs d) (flat_map (numbered md n) l)).
      { induction l as [|t l IH]; [reflexivity|]. cbn [flat_map]. now rewrite map_app, IH. }
      rewrite G, numbered_all, <- (map_map fst (fun k => nth k recs d)), enumerate_fst, <- L. symmetry. apply map_nth_all.
  Qed.

  Lemma period_contribution_numbered dbg t i :
    period_contribution md n dbg t i = sum_list (map (fun ke => do_all_contributions dbg (fst ke) i) (numbered md n t)).
  Proof.
    unfold period_contribution. rewrite rsum_list, <- enumerate_fst, map_map.
    rewrite (map_ext_in _ (fun ke => if (fst (snd ke) =? t)%nat then do_all_contributions dbg (fst ke) i else 0)).
    - unfold numbered, sum_list. induction (enumerate (equations md n)) as [|ke l IH]; [reflexivity|]. cbn [map fold_right filter].
      rewrite IH. destruct (fst (snd ke) =? t)%nat; [reflexivity|ring].
    - intros [k [u v]] Hin. cbn [fst snd]. unfold enumerate in Hin. apply combine_seq_nth in Hin as [_ Hin]. rewrite Nat.sub_0_r in Hin.
      now rewrite Hin.
  Qed.

  Lemma last_numbered t k : last_of_period md n t k -> exists l v, numbered md n t = l ++ [(k, (t, v))].
  Proof.
    intros [(v & Hk) Hlast].
    assert (Hin : In (k, (t, v)) (numbered md n t)) by (apply numbered_spec; eauto).
    apply in_split in Hin as (l1 & l2 & E). exists l1, v. rewrite E. f_equal. f_equal. destruct l2 as [|ke l2]; [reflexivity|exfalso].
    assert (Hs : StronglySorted lt (map fst (numbered md n t))).
    { unfold numbered. assert (G : forall (l : list (nat * (nat * string))) q, StronglySorted lt (map fst l) -> StronglySorted lt (map fst (filter q l))).
      { clear. induction l as [|x l IH]; intros q Hs; [constructor|]. cbn [map] in Hs. inversion_clear Hs as [|? ? H1 H2]. cbn [filter].
        destruct (q x); [|now apply IH]. cbn [map]. constructor; [now apply IH|]. rewrite Forall_forall in *. intros y Hy.
        apply H2. apply in_map_iff in Hy as (z & <- & Hz). apply filter_In in Hz as [Hz _]. now apply in_map. }
      apply G. rewrite enumerate_fst. generalize O. induction (length (equations md n)) as [|m IH]; intros s; [constructor|].
      cbn [seq]. constructor; [apply IH|]. apply Forall_forall. intros x Hx. apply in_seq in Hx. lia. }
    assert (Hke : In ke (numbered md n t)) by (rewrite E; apply in_or_app; right; right; now left).
    apply numbered_spec in Hke as (k' & v' & -> & Hk'). rewrite E, map_app in Hs. cbn [map fst] in Hs.
    assert (Hlt : (k < k')%nat).
    { clear -Hs. induction l1 as [|x l1 IH]; cbn [map app] in Hs.
      - inversion_clear Hs as [|? ? _ H2]. inversion_clear H2. assumption.
      - inversion_clear Hs. now apply IH. }
    exact (Hlast k' v' Hlt Hk').
  Qed.
End RecordBlocks.

(** ** Both models *)

Lemma Forall2_maps {A B C D} (P : A -> B -> Prop) (Q : C -> D -> Prop) (f : A -> C) (g : B -> D) l l' :
  Forall2 P l l' -> (forall x y, P x y -> Q (f x) (g y)) -> Forall2 Q (map f l) (map g l').
Proof. intros F HQ. induction F as [|x y l l' Hxy _ IH]; cbn [map]; constructor; [now apply HQ|exact IH]. Qed.

Section Both.
  Variables qr qr' : qr_function.
  Hypothesis Hqr : correct_qr qr.
  Hypothesis Hqr' : correct_qr qr'.
  Variables (nan neg_inf : R) (custom : string -> dict R -> dict R -> list R -> result R).
  Variables (md md' : model_dict) (p p' : processed) (n : nat) (df : frame R) (ids lv : list Z) (ar ar' : arrays R)
    (params params' : list R) (ps ps' : parsed R) (val val' : label -> R).
  Hypothesis HS : affine_setting custom md p n df ids lv ar params ps val.
  Hypothesis H' : likelihood_setting md' p' n df ids lv ar' params' ps'.
  Hypothesis Hord' : anchored_in_order md'.
  Hypothesis Hval' : parameter_values (params_index_of p') params' val'.
  Hypothesis Hre : reordered md md'.
  Hypothesis Hsame : same_parameters md md' val val'.

  Let Hcustom : total_custom custom. Proof. apply HS. Qed.
  Let H : likelihood_setting md p n df ids lv ar params ps. Proof. apply HS. Qed.
  Let Haff : affine_model md. Proof. apply HS. Qed.
  Let Hclean : clean_anchoring md. Proof. apply HS. Qed.
  Let Hord : anchored_in_order md. Proof. apply HS. Qed.
  Let Hval : parameter_values (params_index_of p) params val. Proof. apply HS. Qed.
  Let Hreg : regular_equations md n val. Proof. apply HS. Qed.
  Let Hp : process_model md = Ok p. Proof. apply H. Qed.
  Let Hp' : process_model md' = Ok p'. Proof. apply H'. Qed.
  Let Hg : good_names md. Proof. apply H. Qed.
  Let Hg' : good_names md'. Proof. apply H'. Qed.
  Let Hnd : NoDup (latent_of md).
  Proof. destruct Hg as [A _]. now apply NoDup_app_l in A. Qed.
  Let Hclean' : clean_anchoring md'. Proof. exact (clean_reordered md md' Hre Hclean). Qed.
  Let Haff' : affine_model md'.
  Proof. intros f fs Hin. apply (Haff f fs). destruct Hre as (P & _). now apply (Permutation_in _ (Permutation_sym P)). Qed.
  Let Hobs : observed_of md' = observed_of md. Proof. symmetry. apply Hre. Qed.
  Let Hcon : controls_of md' = controls_of md. Proof. symmetry. apply Hre. Qed.
  Let Hopt : md_options md' = md_options md. Proof. symmetry. apply Hre. Qed.
  Let Hmix : n_mixtures_of md' = n_mixtures_of md. Proof. unfold n_mixtures_of. now rewrite Hopt. Qed.
  Let Hlat : length (latent_of md') = length (latent_of md). Proof. symmetry. exact (latent_length md md' Hre). Qed.

  Let inp := inputs_of ps ar.
  Let inp' := inputs_of ps' ar'.
  Let nl := length (latent_of md).
  Let no := length (observed_of md).
  Let nm := n_mixtures_of md.
  Let nc := S (length (controls_of md)).
  Let s := place md md'.
  Let Hs : reordering nl s. Proof. exact (place_reordering md md' Hre Hnd). Qed.
  Let given := fun id t x => given_value md n df lv id t x.

  Lemma both_given id t x : In id ids -> (t < n)%nat -> handed_over 1 md n df lv id t x (given id t x).
  Proof. intros _ _. apply given_handed. Qed.

  Lemma both_given' id t x : In id ids -> (t < n)%nat -> handed_over 1 md' n df lv id t x (given id t x).
  Proof. intros _ _. unfold given. rewrite (given_reordered md md' n Hre Hclean). apply given_handed. Qed.

  Lemma both_controls t : (t < n)%nat -> in_controls inp t = in_controls inp' t.
  Proof.
    intros Ht. unfold inp, inp'.
    rewrite (controls_form md p n df ids lv ar params ps H given both_given t Ht).
    rewrite (controls_form md' p' n df ids lv ar' params' ps' H' given both_given' t Ht). now rewrite Hcon.
  Qed.

  Lemma both_observed t : (t < n)%nat -> in_observed inp t = in_observed inp' t.
  Proof.
    intros Ht. unfold inp, inp'.
    rewrite (observed_form md p n df ids lv ar params ps H given both_given t Ht).
    rewrite (observed_form md' p' n df ids lv ar' params' ps' H' given both_given' t Ht). now rewrite Hobs.
  Qed.

  Lemma both_latent (g g' : string -> R) : (forall f, In f (latent_of md) -> g f = g' f) ->
    vperm nl s (arr1 (map g (latent_of md))) (arr1 (map g' (latent_of md'))).
  Proof.
    intros Hgg a Ha. destruct (place_spec md md' Hre Hnd a Ha) as [Hpl En]. unfold arr1.
    rewrite (nth_of_nth_error _ _ _ _ (map_nth_error g _ _ (nth_error_nth' (latent_of md) ""%string Hpl))).
    assert (Ha' : (a < length (latent_of md'))%nat) by (rewrite Hlat; exact Ha).
    rewrite (nth_of_nth_error _ _ _ _ (map_nth_error g' _ _ (nth_error_nth' (latent_of md') ""%string Ha'))).
    fold s. rewrite <- En. apply Hgg. now apply nth_In.
  Qed.

  Lemma both_equation anch k k' t v i :
    nth_error (equations md n) k = Some (t, v) -> nth_error (equations md' n) k' = Some (t, v) ->
    same_equation nl nc i s (block_equation inp (k, anch)) (block_equation inp' (k', anch)).
  Proof.
    intros Hk Hk'. assert (Ht : (t < n)%nat) by (apply (equations_period md n t v); eapply nth_error_In, Hk).
    assert (S : forall c x, c <> CInitChol -> val (c, t, v, x) = val' (c, t, v, x)) by (intros c x; apply Hsame).
    unfold block_equation, same_equation. cbn [fst snd ms_loadings ms_control_params ms_sd ms_values]. unfold inp, inp'.
    rewrite (loading_form md p n df ids lv ar params ps val H Hval k t v Hk), (loading_form md' p' n df ids lv ar' params' ps' val' H' Hval' k' t v Hk').
    rewrite (control_form md p n df ids lv ar params ps val H Hval k t v Hk), (control_form md' p' n df ids lv ar' params' ps' val' H' Hval' k' t v Hk').
    rewrite (sd_form md p n df ids lv ar params ps val H Hval k t v Hk), (sd_form md' p' n df ids lv ar' params' ps' val' H' Hval' k' t v Hk').
    rewrite (values_form md p n df ids lv ar params ps H given both_given k t v Hk).
    rewrite (values_form md' p' n df ids lv ar' params' ps' H' given both_given' k' t v Hk').
    split; [reflexivity|]. split; [|split; [|split; [|split]]].
    - apply both_latent. intros f _. now apply S.
    - intros c _. rewrite Hcon. f_equal. apply map_ext. intros x. now apply S.
    - now apply S.
    - reflexivity.
    - apply Hreg. eapply nth_error_In, Hk.
  Qed.

  Lemma both_equations t i : (t < n)%nat -> exists ms1 an1,
    Permutation ms1 (measured_equations md' n t) /\ Permutation an1 (anchor_equations md' n t) /\
    Forall2 (same_equation nl nc i s) (map (block_equation inp) (period_list (measured_equations md n t) (anchor_equations md n t)))
      (map (block_equation inp') (period_list ms1 an1)).
  Proof.
    intros Ht.
    destruct (corresponding md md' n Hre (fun v => negb (is_anchoring_equation md v)) (fun v => negb (is_anchoring_equation md' v)) t) as (ms1 & P1 & F1).
    { intros v. now rewrite (names_anchoring md md' Hre). }
    destruct (corresponding md md' n Hre (is_anchoring_equation md) (is_anchoring_equation md') t) as (an1 & P2 & F2).
    { intros v. apply (names_anchoring md md' Hre). }
    exists ms1, an1. split; [exact P1|]. split; [exact P2|]. unfold period_list. rewrite !map_app, !map_map.
    apply Forall2_app.
    - apply (Forall2_maps _ _ _ _ _ _ F1). intros k k' (v & Hk & Hk' & _). now apply (both_equation false k k' t v).
    - apply (Forall2_maps _ _ _ _ _ _ F2). intros k k' (v & Hk & Hk' & _). now apply (both_equation true k k' t v).
  Qed.

  Lemma outcomes_In f o : In (f, o) (outcomes_of md) <-> In (f, o) (outcomes_of md').
  Proof. destruct Hre as (_ & P & _). split; apply Permutation_in; [exact P|now apply Permutation_sym]. Qed.

  Lemma both_place a : (a < nl)%nat ->
    nth_error (latent_of md ++ observed_of md) (s a) = Some (nth a (latent_of md') ""%string) /\
    nth_error (latent_of md' ++ observed_of md') a = Some (nth a (latent_of md') ""%string).
  Proof.
    intros Ha. destruct (place_spec md md' Hre Hnd a Ha) as [Hpl En].
    assert (Ha' : (a < length (latent_of md'))%nat) by (rewrite Hlat; exact Ha).
    rewrite !nth_error_app1 by assumption. split; [|now apply nth_error_nth'].
    rewrite <- En. now apply nth_error_nth'.
  Qed.

  Lemma both_factor_anchoring t f j j' : (t < n)%nat -> nth_error (latent_of md ++ observed_of md) j = Some f ->
    nth_error (latent_of md' ++ observed_of md') j' = Some f ->
    in_scaling inp t j = in_scaling inp' t j' /\ in_constants inp t j = in_constants inp' t j' /\ in_scaling inp t j <> 0.
  Proof.
    intros Ht Hj Hj'.
    destruct (anchoring_by_name md p n df ids lv ar params ps val H Hval Hclean Hord t j f Ht Hj) as [A B].
    destruct (anchoring_by_name md' p' n df ids lv ar' params' ps' val' H' Hval' Hclean' Hord' t j' f Ht Hj') as [A' B'].
    fold inp in A, B. fold inp' in A', B'.
    destruct (in_dec string_dec f (map fst (outcomes_of md))) as [I|N].
    - apply in_map_iff in I as ([g o] & E & Ho). cbn [fst] in E. subst g.
      destruct (A o Ho) as [-> ->], (A' o (proj1 (outcomes_In f o) Ho)) as [-> ->].
      assert (Ei : ignores_constant md' = ignores_constant md) by (symmetry; apply Hre). rewrite Ei.
      split; [now apply Hsame|]. split; [destruct (ignores_constant md); [reflexivity|now apply Hsame]|]. now apply Hreg.
    - assert (No : forall o, ~ In (f, o) (outcomes_of md)) by (intros o F; apply N; now apply (in_map fst _ (f, o))).
      destruct (B No) as [-> ->]. destruct B' as [-> ->]; [intros o F; now apply (No o), outcomes_In|].
      split; [reflexivity|]. split; [reflexivity|]. lra.
  Qed.

  Lemma both_scaling t : (t < n)%nat -> vperm nl s (in_scaling inp t) (in_scaling inp' t) /\ vperm nl s (in_constants inp t) (in_constants inp' t).
  Proof.
    intros Ht. split; intros a Ha; destruct (both_place a Ha) as [E E'];
      destruct (both_factor_anchoring t _ _ _ Ht E E') as (A & B & _); assumption.
  Qed.

  Lemma both_observed_scaling t o : (t < n)%nat -> (o < no)%nat ->
    in_scaling inp t (nl + o)%nat = in_scaling inp' t (nl + o)%nat /\ in_constants inp t (nl + o)%nat = in_constants inp' t (nl + o)%nat.
  Proof.
    intros Ht Ho.
    assert (E : nth_error (latent_of md ++ observed_of md) (nl + o) = Some (nth o (observed_of md) ""%string)).
    { rewrite nth_error_app2 by (unfold nl; lia). replace (nl + o - length (latent_of md))%nat with o by (unfold nl; lia). now apply nth_error_nth'. }
    assert (E' : nth_error (latent_of md' ++ observed_of md') (nl + o) = Some (nth o (observed_of md) ""%string)).
    { rewrite nth_error_app2 by (rewrite Hlat; unfold nl; lia). rewrite Hlat, Hobs. replace (nl + o - length (latent_of md))%nat with o by (unfold nl; lia). now apply nth_error_nth'. }
    destruct (both_factor_anchoring t _ _ _ Ht E E') as (A & B & _). now split.
  Qed.

  Lemma scaling_nonzero t a : (t < n)%nat -> (a < nl)%nat -> in_scaling inp t a <> 0 /\ in_scaling inp' t a <> 0.
  Proof.
    intros Ht Ha. split.
    - assert (Hin : In (nth a (latent_of md) ""%string) (latent_of md')).
      { apply (Permutation_in _ (latent_perm md md' Hre)). now apply nth_In. }
      apply In_nth_error in Hin as [b Hb].
      destruct (both_factor_anchoring t (nth a (latent_of md) ""%string) a b Ht) as (_ & _ & C); [| |exact C].
      + rewrite nth_error_app1 by exact Ha. now apply nth_error_nth'.
      + rewrite nth_error_app1; [exact Hb|]. apply nth_error_Some. congruence.
    - destruct (both_place a Ha) as [E E']. destruct (both_factor_anchoring t _ _ _ Ht E E') as (A & _ & C). now rewrite <- A.
  Qed.

  Lemma both_constant f : stays_constant md f = stays_constant md' f.
  Proof.
    unfold stays_constant. apply existsb_incl. intros x. destruct Hre as (P & _).
    split; apply Permutation_in; [exact P|now apply Permutation_sym].
  Qed.

  Lemma both_coefficient t f g : (f < nl)%nat -> (g < nl)%nat ->
    coefficient_of md val t (s f) (s g) = coefficient_of md' val' t f g.
  Proof.
    intros Hf Hgl. unfold coefficient_of. destruct (place_spec md md' Hre Hnd f Hf) as [Lf Ef], (place_spec md md' Hre Hnd g Hgl) as [Lg Eg].
    fold s in Lf, Ef, Lg, Eg. rewrite Ef, both_constant. destruct (stays_constant md' _).
    - destruct (Nat.eqb_spec (s g) (s f)) as [E|N], (Nat.eqb_spec g f) as [E'|N']; try reflexivity.
      + destruct N'. now apply Hs.
      + now subst.
    - rewrite !app_nth1 by (try exact Lg; rewrite Hlat; exact Hgl). rewrite Eg. now apply Hsame.
  Qed.

  Lemma both_coefficient_observed t f o : (f < nl)%nat -> (o < no)%nat ->
    coefficient_of md val t (s f) (nl + o) = coefficient_of md' val' t f (nl + o).
  Proof.
    intros Hf Ho. unfold coefficient_of. destruct (place_spec md md' Hre Hnd f Hf) as [Lf Ef]. fold s nl in Lf, Ef. rewrite Ef, both_constant.
    destruct (stays_constant md' _).
    - now rewrite !(proj2 (Nat.eqb_neq _ _)) by lia.
    - rewrite !app_nth2 by (rewrite ?Hlat; unfold nl; lia). rewrite Hlat, Hobs. now apply Hsame.
  Qed.

  Lemma both_intercept t : vperm nl s (intercept_of md val t) (intercept_of md' val' t).
  Proof.
    intros f Hf. unfold intercept_of. destruct (place_spec md md' Hre Hnd f Hf) as [_ Ef]. fold s in Ef. rewrite Ef, both_constant.
    destruct (stays_constant md' _); [reflexivity|]. now apply Hsame.
  Qed.

  Lemma same_options : p_options p' = p_options p.
  Proof. rewrite (p_options_eq _ _ Hp), (p_options_eq _ _ Hp'). unfold process_estimation_options. now rewrite Hopt. Qed.

  Let kappa := Q2R (o_sigma_points_scale (p_options p)).
  Let tfunc := model_tfunc nan neg_inf custom md (p_labels p).
  Let tfunc' := model_tfunc nan neg_inf custom md' (p_labels p').

  Lemma both_transition t i b b' b1 b1' : (1 <= nl)%nat -> (t + 1 < n)%nat -> related_beliefs nm nl i s b b' ->
    transition_event qr nan tfunc (length ids) nm nl no kappa inp t b = Ok b1 ->
    transition_event qr' nan tfunc' (length ids) nm nl no kappa inp' t b' = Ok b1' -> related_beliefs nm nl i s b1 b1'.
  Proof.
    intros Hnl Ht Hb E E'. unfold transition_event in E, E'.
    apply rbind_ok in E as ([q c] & E & F). injection F as <-. apply rbind_ok in E' as ([q' c'] & E' & F). injection F as <-.
    cbn [fst snd] in *.
    assert (Hk : 0 <= kappa) by apply HS.
    assert (Hshape : no = O \/ nm = 1%nat).
    { destruct HS as (_ & _ & _ & _ & _ & _ & [F|F] & _); [left; unfold no; now rewrite F|now right]. }
    intros m Hm.
    assert (G := predict_related qr qr' Hqr Hqr' (length ids) nm nl no kappa kappa Hk Hk Hnl Hshape s Hs i
      (tfunc (in_coeffs inp t)) (tfunc' (in_coeffs inp' t)) (coefficient_of md val t) (coefficient_of md' val' t)
      (intercept_of md val t) (intercept_of md' val' t) (in_shock_sds inp t) (in_shock_sds inp' t)
      (fun r => in_scaling inp (t + r)%nat) (fun r => in_scaling inp' (t + r)%nat)
      (fun r => in_constants inp (t + r)%nat) (fun r => in_constants inp' (t + r)%nat)
      (fun i f => to_number nan (in_observed inp t i f)) (fun i f => to_number nan (in_observed inp' t i f))).
    assert (R : vperm nl s (q i m) (q' i m) /\ mperm nl s (cov nl (c i m)) (cov nl (c' i m))).
    { apply (fun A1 A2 A3 A4 A5 A6 A7 A8 A9 A10 A11 A12 A13 A14 =>
        G A1 A2 A3 A4 A5 A6 A7 A8 A9 A10 A11 A12 A13 (be_states b) (be_states b') (be_chols b) (be_chols b') q c q' c' A14 E E' m Hm).
      - exact (affine_form md p n df ids lv ar params ps val H Hval Haff nan neg_inf custom Hcustom t Ht).
      - intros v f Hf. unfold tfunc', inp'.
        rewrite (affine_form md' p' n df ids lv ar' params' ps' val' H' Hval' Haff' nan neg_inf custom Hcustom t Ht v f) by (rewrite Hlat; exact Hf).
        now rewrite Hlat, Hobs.
      - intros f Hf. apply (scaling_nonzero (t + 1) f); [lia|exact Hf].
      - intros f Hf. apply (scaling_nonzero (t + 1) f); [lia|exact Hf].
      - intros f g. apply both_coefficient.
      - intros f o. apply both_coefficient_observed.
      - apply both_intercept.
      - unfold inp, inp'. rewrite (shock_form md p n df ids lv ar params ps val H Hval t Ht), (shock_form md' p' n df ids lv ar' params' ps' val' H' Hval' t Ht).
        apply both_latent. intros f _. now apply Hsame.
      - intros r Hr. apply both_scaling. lia.
      - intros r Hr. apply both_scaling. lia.
      - intros o Ho. apply both_observed_scaling; [lia|exact Ho].
      - intros o Ho. apply both_observed_scaling; [lia|exact Ho].
      - intros o Ho. rewrite both_observed by lia. reflexivity.
      - intros m' Hm'. destruct (Hb m' Hm') as (A & B & _). now split. }
    destruct R as [R1 R2]. split; [exact R1|]. split; [exact R2|]. apply (Hb m Hm).
  Qed.

  Lemma both_initial i : (i < length ids)%nat -> related_beliefs nm nl i s (initial_belief ps) (initial_belief ps').
  Proof.
    intros Hi e He.
    destruct (initial_by_name md p n df ids lv ar params ps val H Hval i Hi e He) as (W & M & C).
    assert (He' : (e < n_mixtures_of md')%nat) by (rewrite Hmix; exact He).
    destruct (initial_by_name md' p' n df ids lv ar' params' ps' val' H' Hval' i Hi e He') as (W' & M' & C').
    rewrite Hlat in M', C'. fold nl in M, M', C, C'. split; [|split].
    - intros a Ha. destruct (place_spec md md' Hre Hnd a Ha) as [La Ea]. fold s in La, Ea. rewrite (M _ La), (M' _ Ha), Ea. now apply Hsame.
    - intros a b Ha Hb. destruct (place_spec md md' Hre Hnd a Ha) as [La Ea], (place_spec md md' Hre Hnd b Hb) as [Lb Eb].
      fold s in La, Ea, Lb, Eb. rewrite (C _ _ La Lb), (C' _ _ Ha Hb), <- Ea, <- Eb. apply Hsame; [exact He| |]; now apply nth_In.
    - rewrite W, W'. f_equal. now apply Hsame.
  Qed.
End Both.

Lemma some_factor md n : has_n_periods md n -> (1 <= n)%nat -> (1 <= length (latent_of md))%nat.
Proof.
  intros [A _] Hn. unfold latent_of. rewrite map_length. destruct (md_factors md) as [|x l]; [|cbn; lia].
  exfalso. firstorder.
Qed.

Lemma sum_list_app l l' : sum_list (l ++ l') = sum_list l + sum_list l'.
Proof. unfold sum_list. induction l as [|x l IH]; cbn [app fold_right]; [ring|]. rewrite IH. ring. Qed.

(** *** C97 The order of the latent factors does not matter
    Two models that list the same latent factors in different orders, all with linear or
    constant transition functions, with the same data, the same values of all parameters
    and the same initial covariances: for every individual and every period, the
    log likelihood contributions of the equations of the period have the same sum, and at
    the end of every period the mixture weights and, for each factor, the filtered states
    are the same.  Without bounds for clipping, the contributions of the individuals and
    the log likelihood are the same.  Missing: other transition functions, see
    [C97_nonlinear_refuted]. *)
Theorem C97_factor_order_partial :
  forall qr qr' nan neg_inf custom md md' p p' n df ids lv ar ar' params params' ps ps' val val',
    correct_qr qr -> correct_qr qr' ->
    affine_setting custom md p n df ids lv ar params ps val ->
    likelihood_setting md' p' n df ids lv ar' params' ps' -> anchored_in_order md' ->
    parameter_values (params_index_of p') params' val' ->
    reordered md md' -> same_parameters md md' val val' ->
    exists out out' dbg dbg',
      log_likelihood qr nan (model_tfunc nan neg_inf custom md (p_labels p)) p ar true params = Ok out /\
      log_likelihood qr' nan (model_tfunc nan neg_inf custom md' (p_labels p')) p' ar' true params' = Ok out' /\
      out_debug out = Some dbg /\ out_debug out' = Some dbg' /\
      (forall i t, (i < length ids)%nat -> (t < n)%nat ->
         period_contribution md n dbg t i = period_contribution md' n dbg' t i) /\
      (forall i t k k', (i < length ids)%nat -> last_of_period md n t k -> last_of_period md' n t k' ->
         forall m, (m < n_mixtures_of md)%nat ->
           do_logw dbg k i m = do_logw dbg' k' i m /\
           forall a a' f, nth_error (latent_of md) a = Some f -> nth_error (latent_of md') a' = Some f ->
             do_filtered_states dbg k i m a = do_filtered_states dbg' k' i m a') /\
      (o_clip_lower (p_options p) = None -> o_clip_upper (p_options p) = None ->
         (forall i, (i < length ids)%nat -> out_contributions out i = out_contributions out' i) /\
         out_value out = out_value out').
Proof.
  intros qr qr' nan neg_inf custom md md' p p' n df ids lv ar ar' params params' ps ps' val val' Hqr Hqr' HS H' Hord' Hval' Hre Hsame.
  assert (H : likelihood_setting md p n df ids lv ar params ps) by apply HS.
  assert (Hclean : clean_anchoring md) by apply HS.
  assert (Hev : every_period_measured md n) by apply HS.
  assert (Hfit : observed_of md = [] \/ n_mixtures_of md = 1%nat) by apply HS.
  assert (Hnm : (1 <= n_mixtures_of md)%nat) by apply HS.
  assert (Hp : process_model md = Ok p) by apply H. assert (Hp' : process_model md' = Ok p') by apply H'.
  assert (Hwf : wf_dicts md) by apply H. assert (Hwf' : wf_dicts md') by apply H'.
  assert (Hn : has_n_periods md n) by apply H. assert (Hn' : has_n_periods md' n) by apply H'.
  assert (Hclean' := clean_reordered md md' Hre Hclean).
  assert (Hev' : every_period_measured md' n).
  { intros t Ht. destruct (Hev t Ht) as (v & Hv). exists v. now apply (equations_In md md' n Hre). }
  assert (Hnd : NoDup (latent_of md)).
  { destruct H as (_ & [A _] & _). now apply NoDup_app_l in A. }
  assert (Hopt := same_options custom md md' p p' n df ids lv ar ar' params params' ps ps' val HS H' Hre).
  assert (Hlat : length (latent_of md') = length (latent_of md)) by (symmetry; apply (latent_length md md' Hre)).
  assert (Hobs : observed_of md' = observed_of md) by (symmetry; apply Hre).
  assert (Hcon : controls_of md' = controls_of md) by (symmetry; apply Hre).
  assert (Hmix : n_mixtures_of md' = n_mixtures_of md).
  { unfold n_mixtures_of. destruct Hre as (_ & _ & _ & _ & _ & <-). reflexivity. }
  destruct (p_dims_eq md p Hp) as (D1 & D2 & D3 & D4 & _ & _). destruct (p_dims_eq md' p' Hp') as (D1' & D2' & D3' & D4' & _ & _).
  rewrite Hlat in D1'. rewrite Hobs in D2'. rewrite Hcon in D3'. rewrite Hmix in D4'.
  assert (Hshape : shapes_fit (length ids) (n_mixtures (p_dims p)) (n_observed (p_dims p)) = true).
  { apply shapes_fit_spec. rewrite D2, D4. destruct Hfit as [->| ->]; [right; now left|right; now right]. }
  assert (Hshape' : shapes_fit (length ids) (n_mixtures (p_dims p')) (n_observed (p_dims p')) = true).
  { rewrite D4', D2', <- D4, <- D2. exact Hshape. }
  destruct (likelihood_events qr nan (model_tfunc nan neg_inf custom md (p_labels p)) md p n df ids lv ar params ps true H Hshape)
    as (recs & out & Er & Hl & Eo & Hr).
  destruct (likelihood_events qr' nan (model_tfunc nan neg_inf custom md' (p_labels p')) md' p' n df ids lv ar' params' ps' true H' Hshape')
    as (recs' & out' & Er' & Hl' & Eo' & Hr').
  destruct Hr as (V & C & _ & Dbg). destruct (Dbg eq_refl) as (dbg & Edbg & _ & _ & K).
  destruct Hr' as (V' & C' & _ & Dbg'). destruct (Dbg' eq_refl) as (dbg' & Edbg' & _ & _ & K').
  exists out, out', dbg, dbg'. split; [exact Eo|]. split; [exact Eo'|]. split; [exact Edbg|]. split; [exact Edbg'|].
  assert (Lu : length recs = length (equations md n)).
  { rewrite Hl, (equations_update md p n Hwf Hp Hn). now rewrite map_length. }
  assert (Lu' : length recs' = length (equations md' n)).
  { rewrite Hl', (equations_update md' p' n Hwf' Hp' Hn'). now rewrite map_length. }
  rewrite (schedule_code md p n Hwf Hp Hn Hev), (schedule_periods md n Hclean) in Er.
  rewrite (schedule_code md' p' n Hwf' Hp' Hn' Hev'), (schedule_periods md' n Hclean') in Er'.
  unfold run_model in Er, Er'. rewrite D1, D2, D3, D4 in Er. rewrite D1', D2', D3', D4', Hopt in Er'.
  set (r0 := mk_record (fun _ => 0) (fun _ _ _ => 0) (fun _ _ => 0) (fun _ _ => None) (fun _ _ => None)).
  assert (Hnl : (1 <= length (latent_of md))%nat) by (apply (some_factor md n Hn), (n_ge_1 md p n df ids lv ar params ps H)).
  assert (Lp : forall t, (t < n)%nat -> length (period_list (measured_equations md n t) (anchor_equations md n t)) = length (numbered md n t)).
  { intros t Ht. rewrite (period_split md n Hclean t Ht) at 1. unfold period_list, measured_equations, anchor_equations.
    now rewrite !app_length, !map_length. }
  assert (Lp' : forall t, (t < n)%nat -> length (period_list (measured_equations md' n t) (anchor_equations md' n t)) = length (numbered md' n t)).
  { intros t Ht. rewrite (period_split md' n Hclean' t Ht) at 1. unfold period_list, measured_equations, anchor_equations.
    now rewrite !app_length, !map_length. }
  (* the records of each period *)
  assert (Hblocks : forall i t, (i < length ids)%nat -> (t < n)%nat ->
    related_blocks (n_mixtures_of md) (length (latent_of md)) i (place md md')
      (map (fun ke => nth (fst ke) recs r0) (numbered md n t)) (map (fun ke => nth (fst ke) recs' r0) (numbered md' n t))).
  { intros i t Hi Ht.
    assert (Heqs := fun t => both_equations custom md md' p p' n df ids lv ar ar' params params' ps ps' val val' HS H' Hval' Hre Hsame t i).
    assert (Hctl : forall t, (t < n)%nat -> forall c, (c < S (length (controls_of md)))%nat ->
      in_controls (inputs_of ps ar) t i c = in_controls (inputs_of ps' ar') t i c).
    { intros u Hu c _. now rewrite (both_controls custom md md' p p' n df ids lv ar ar' params params' ps ps' val HS H' Hre u Hu). }
    destruct (periods_related qr qr' Hqr Hqr' nan _ _ (length ids) (n_mixtures_of md) (length (latent_of md)) (length (observed_of md))
      (S (length (controls_of md))) _ _ (inputs_of ps ar) (inputs_of ps' ar') i (place md md') Hnm
      (place_reordering md md' Hre Hnd) (measured_equations md n) (measured_equations md' n) (anchor_equations md n) (anchor_equations md' n) n
      Hctl Heqs
      (fun t b b' b1 b1' => both_transition qr qr' Hqr Hqr' nan neg_inf custom md md' p p' n df ids lv ar ar' params params' ps ps' val val'
         HS H' Hord' Hval' Hre Hsame t i b b' b1 b1' Hnl)
      n O _ _ recs recs' eq_refl
      (both_initial custom md md' p p' n df ids lv ar ar' params params' ps ps' val val' HS H' Hval' Hre Hsame i Hi) Er Er')
      as (blocks & blocks' & Eb & Eb' & Mb & Mb' & F).
    assert (Mn : map (fun t => length (period_list (measured_equations md n t) (anchor_equations md n t))) (seq 0 n)
               = map (fun t => length (numbered md n t)) (seq 0 n)).
    { apply map_ext_in. intros u Hu. apply in_seq in Hu. apply Lp. lia. }
    assert (Mn' : map (fun t => length (period_list (measured_equations md n t) (anchor_equations md n t))) (seq 0 n)
               = map (fun t => length (numbered md' n t)) (seq 0 n)).
    { apply map_ext_in. intros u Hu. apply in_seq in Hu. rewrite <- Lp' by lia.
      apply (period_length (length (latent_of md)) (S (length (controls_of md))) (inputs_of ps ar) (inputs_of ps' ar') i (place md md')
        (measured_equations md n) (measured_equations md' n) (anchor_equations md n) (anchor_equations md' n) n Heqs). lia. }
    rewrite Mn in Mb. rewrite Mn' in Mb'.
    rewrite (record_blocks md n recs blocks r0 Lu Eb Mb), (record_blocks md' n recs' blocks' r0 Lu' Eb' Mb') in F.
    clear -F Ht. revert Ht F. generalize (related_blocks (n_mixtures_of md) (length (latent_of md)) i (place md md')). intros P Ht F.
    assert (G : forall m s0 (g g' : nat -> list record), Forall2 P (map g (seq s0 m)) (map g' (seq s0 m)) -> forall u, (s0 <= u < s0 + m)%nat -> P (g u) (g' u)).
    { clear. induction m as [|m IH]; intros s0 g g' F u Hu; [lia|]. cbn [seq map] in F. inversion_clear F as [|? ? ? ? F1 F2].
      destruct (Nat.eq_dec u s0) as [->|N]; [exact F1|]. apply (IH (S s0) g g' F2). lia. }
    exact (G n O _ _ F t ltac:(lia)). }
  assert (Kn : forall k, (k < length (equations md n))%nat ->
    do_all_contributions dbg k = re_contribution (nth k recs r0) /\ do_filtered_states dbg k = re_states (nth k recs r0) /\
    do_logw dbg k = re_logw (nth k recs r0)).
  { intros k Hk. destruct (K k (nth k recs r0)) as (A & _ & _ & B & D); [apply nth_error_nth'; now rewrite Lu|]. auto. }
  assert (Kn' : forall k, (k < length (equations md' n))%nat ->
    do_all_contributions dbg' k = re_contribution (nth k recs' r0) /\ do_filtered_states dbg' k = re_states (nth k recs' r0) /\
    do_logw dbg' k = re_logw (nth k recs' r0)).
  { intros k Hk. destruct (K' k (nth k recs' r0)) as (A & _ & _ & B & D); [apply nth_error_nth'; now rewrite Lu'|]. auto. }
  assert (Tot : forall i t, (i < length ids)%nat -> (t < n)%nat -> period_contribution md n dbg t i = period_contribution md' n dbg' t i).
  { intros i t Hi Ht. rewrite !period_contribution_numbered. destruct (Hblocks i t Hi Ht) as [B _]. unfold block_total in B.
    rewrite !map_map in B.
    rewrite (map_ext_in _ (fun ke => re_contribution (nth (fst ke) recs r0) i)).
    2:{ intros ke Hke. apply numbered_spec in Hke as (k & v & -> & Hk). cbn [fst].
        destruct (Kn k) as [-> _]; [apply nth_error_Some; congruence|reflexivity]. }
    rewrite B. f_equal. apply map_ext_in. intros ke Hke. apply numbered_spec in Hke as (k & v & -> & Hk). cbn [fst].
    destruct (Kn' k) as [-> _]; [apply nth_error_Some; congruence|reflexivity]. }
  split; [exact Tot|]. split.
  - intros i t k k' Hi Hk Hk' m Hm.
    assert (Hk2 := Hk). destruct Hk2 as [(v0 & Hv0) _]. assert (Hk2 := Hk'). destruct Hk2 as [(v0' & Hv0') _].
    assert (Ht : (t < n)%nat) by (apply (equations_period md n t v0); eapply nth_error_In, Hv0).
    destruct (last_numbered md n t k Hk) as (l & v & E), (last_numbered md' n t k' Hk') as (l' & v' & E').
    destruct (Hblocks i t Hi Ht) as [_ B]. rewrite E, E', !map_app in B. cbn [map fst] in B.
    destruct (B _ _ _ _ eq_refl eq_refl m Hm) as [B1 B2].
    destruct (Kn k) as (_ & -> & ->); [apply nth_error_Some; congruence|].
    destruct (Kn' k') as (_ & -> & ->); [apply nth_error_Some; congruence|].
    split; [exact B2|]. intros a a' f Ha Ha'.
    assert (La' : (a' < length (latent_of md))%nat) by (rewrite <- Hlat; apply nth_error_Some; congruence).
    rewrite <- (B1 a' La'). f_equal. destruct (place_spec md md' Hre Hnd a' La') as [Lp0 En].
    apply (proj1 (NoDup_nth_error _) Hnd); [apply nth_error_Some; congruence|]. rewrite (nth_error_nth' (latent_of md) ""%string Lp0), En, Ha.
    f_equal. symmetry. now apply nth_of_nth_error.
  - intros C1 C2.
    assert (Hc : forall i, (i < length ids)%nat -> contribution_of (p_options p) recs i = contribution_of (p_options p') recs' i).
    { intros i Hi. rewrite Hopt. unfold contribution_of, clip_with. rewrite C1, C2. cbn [option_map]. unfold Clipping.soft_clip.
      assert (Ec : forall (rs : list record) m, map (fun r => re_contribution r i) rs = map (fun k => re_contribution (nth k rs r0) i) (seq 0 m) \/ m <> length rs).
      { intros rs m. destruct (Nat.eq_dec m (length rs)) as [->|N]; [left|now right]. rewrite <- (map_map (fun k => nth k rs r0) (fun r => re_contribution r i)).
        now rewrite map_nth_all. }
      assert (G : forall mdx (rs : list record), length rs = length (equations mdx n) ->
        sum_list (map (fun r => re_contribution r i) rs)
        = sum_list (map (fun t => block_total (map (fun ke => nth (fst ke) rs r0) (numbered mdx n t)) i) (seq 0 n))).
      { intros mdx rs L. destruct (Ec rs (length rs)) as [->|N]; [|now destruct N]. rewrite L, <- enumerate_fst, map_map, <- (numbered_all mdx n).
        clear Er Er'. induction (seq 0 n) as [|t l IH]; [reflexivity|]. cbn [flat_map map]. rewrite map_app, sum_list_app, IH.
        unfold sum_list at 3. cbn [fold_right]. fold (sum_list (map (fun t0 => block_total (map (fun ke => nth (fst ke) rs r0) (numbered mdx n t0)) i) l)).
        f_equal. unfold block_total. now rewrite map_map. }
      rewrite (G md recs Lu), (G md' recs' Lu'). f_equal. apply map_ext_in. intros t Ht. apply in_seq in Ht.
      destruct (Hblocks i t Hi) as [B _]; [lia|exact B]. }
    split.
    + intros i Hi. now rewrite C, C', Hc.
    + rewrite V, V'. apply rsum_ext. exact Hc.
Qed.
Print Assumptions C97_factor_order_partial.

(** The example with a linear and a constant factor, both anchored, without bounds for
    clipping. *)
Definition free_model : model_dict :=
  mk_md (md_factors lin_model) (md_observed lin_model) (md_controls lin_model) (md_stagemap lin_model)
    (md_anchoring lin_model) (Some (mk_opts None None None None (Some None) None None None)).
Definition free_p : processed := get_ok (process_model free_model) small_p.
Lemma free_accepted : process_model free_model = Ok free_p.
Proof. vm_compute. reflexivity. Qed.

Lemma free_setting : data_setting free_model free_p 3 ex_df ex_ids ex_lv.
Proof.
  destruct lin_setting as (H1 & _ & H3 & H4 & H5 & H6 & H7).
  split; [exact H1|]. split; [exact free_accepted|]. split; [exact H3|]. split; [exact H4|].
  split; [exact H5|]. split; [exact H6|exact H7].
Qed.

Lemma free_good_names : good_names free_model.
Proof. exact lin_good_names. Qed.

Lemma free_clean : clean_anchoring free_model.
Proof. exact lin_clean. Qed.

Definition swap_model : model_dict :=
  mk_md (rev (md_factors free_model)) (md_observed free_model) (md_controls free_model) (md_stagemap free_model)
    (match md_anchoring free_model with
     | Some (mk_anch o a b c d) => Some (mk_anch (option_map (@rev _) o) a b c d)
     | None => None
     end) (md_options free_model).
Definition swap_p : processed := get_ok (process_model swap_model) small_p.
Lemma swap_accepted : process_model swap_model = Ok swap_p.
Proof. vm_compute. reflexivity. Qed.

Definition order_value (lb : label) : R :=
  match lb with
  | (CInitChol, _, _, x) => if String.eqb x "soc-cog" then 4 else 3
  | _ => kept_value lb
  end.
Definition order_value' (lb : label) : R :=
  match lb with
  | (CInitChol, _, _, x) => if String.eqb x "soc-soc" then 5 else if String.eqb x "cog-soc" then 12 / 5 else 9 / 5
  | _ => kept_value lb
  end.

Lemma swap_reordered : reordered free_model swap_model.
Proof.
  split; [exact (perm_swap _ _ [])|]. split; [exact (perm_swap _ _ [])|]. repeat split; reflexivity.
Qed.

Lemma swap_setting : data_setting swap_model swap_p 3 ex_df ex_ids ex_lv.
Proof.
  destruct free_setting as (H1 & _ & H3 & H4 & H5 & H6 & H7).
  split; [|split; [exact swap_accepted|split; [|split; [|split; [exact H5|split; [exact H6|exact H7]]]]]].
  - split; [exact (Permutation_NoDup (latent_perm _ _ swap_reordered) (proj1 H1))|].
    intros a o [= <-] [= <-]. repeat constructor; cbn; intuition discriminate.
  - split.
    + eexists _, _. split; [right; left; reflexivity|reflexivity].
    + intros f fs [[= <- <-]|[[= <- <-]|[]]]; vm_compute; lia.
  - split.
    + cbn. repeat constructor; cbn; intuition discriminate.
    + intros fo [<-|[<-|[]]]; (split; [discriminate|cbn; intuition discriminate]).
Qed.

Lemma swap_good_names : good_names swap_model.
Proof.
  destruct free_good_names as (G1 & G2 & G3 & G4 & G5 & _).
  assert (P : Permutation (latent_of free_model ++ observed_of free_model) (latent_of swap_model ++ observed_of swap_model))
    by (apply Permutation_app_tail, (latent_perm _ _ swap_reordered)).
  split; [exact (Permutation_NoDup P G1)|].
  split; [intros f Hf; apply G2, (Permutation_in _ (Permutation_sym (latent_perm _ _ swap_reordered))), Hf|].
  split; [intros f Hf; apply G3, (Permutation_in _ (Permutation_sym P)), Hf|].
  split; [exact G4|]. split; [exact G5|].
  intros f fs k names [[= <- <-]|[[= <- <-]|[]]] E; discriminate.
Qed.

Lemma free_affine : affine_model free_model.
Proof. intros f fs [[= <- <-]|[[= <- <-]|[]]]; [now left|now right]. Qed.

Lemma listed_value idx (v : label -> R) lb : NoDup idx ->
  val_of 0 idx (map v idx) lb = if label_mem lb idx then v lb else 0.
Proof.
  intros Hnd. destruct (label_mem lb idx) eqn:E.
  - apply (val_of_values idx v lb Hnd). now apply label_mem_In.
  - apply val_of_absent. intros F. apply label_mem_In in F. congruence.
Qed.

Definition not_chol (lb : label) : bool := match lb_cat lb with CInitChol => false | _ => true end.

Lemma same_members idx idx' :
  forallb (fun lb => negb (not_chol lb) || label_mem lb idx') idx = true ->
  forallb (fun lb => negb (not_chol lb) || label_mem lb idx) idx' = true ->
  forall c t v x, c <> CInitChol -> label_mem (c, t, v, x) idx = label_mem (c, t, v, x) idx'.
Proof.
  intros H H' c t v x Hc. apply Bool.eq_true_iff_eq. rewrite !label_mem_In.
  assert (N : not_chol (c, t, v, x) = true) by (destruct c; try reflexivity; now destruct Hc).
  split; intros Hin.
  - assert (F := proj1 (forallb_forall _ _) H _ Hin). cbv beta in F. rewrite N in F. now apply label_mem_In.
  - assert (F := proj1 (forallb_forall _ _) H' _ Hin). cbv beta in F. rewrite N in F. now apply label_mem_In.
Qed.

Lemma order_values_agree c t v x : c <> CInitChol -> order_value (c, t, v, x) = order_value' (c, t, v, x).
Proof. intros Hc. destruct c; try reflexivity. now destruct Hc. Qed.

Example C97_nonvacuous : exists ar ps val ar' ps' val',
  affine_setting plain_custom free_model free_p 3 (real_frame ex_df) ex_ids ex_lv ar (map order_value (params_index_of free_p)) ps val /\
  likelihood_setting swap_model swap_p 3 (real_frame ex_df) ex_ids ex_lv ar' (map order_value' (params_index_of swap_p)) ps' /\
  anchored_in_order swap_model /\
  parameter_values (params_index_of swap_p) (map order_value' (params_index_of swap_p)) val' /\
  reordered free_model swap_model /\ same_parameters free_model swap_model val val' /\
  latent_of free_model = ["cog"; "soc"]%string /\ latent_of swap_model = ["soc"; "cog"]%string /\
  initial_covariance free_model val 0 "cog" "soc" = 12 /\
  equations free_model 3 <> equations swap_model 3 /\
  o_clip_lower (p_options free_p) = None /\ o_clip_upper (p_options free_p) = None /\
  last_of_period free_model 3 0 4 /\ last_of_period swap_model 3 0 4.
Proof.
  destruct (any_example free_model free_p 3 ex_df ex_ids ex_lv
    (get_ok (process_data 1%Z Z.eqb ex_df (p_labels free_p) (p_update free_p) (p_anch free_p) true) ex_arrays) order_value
    free_setting free_good_names free_clean) as (ar & ps & H).
  { lia. } { apply Nat.leb_le. reflexivity. } { vm_compute. reflexivity. }
  destruct (any_example swap_model swap_p 3 ex_df ex_ids ex_lv
    (get_ok (process_data 1%Z Z.eqb ex_df (p_labels swap_p) (p_update swap_p) (p_anch swap_p) true) ex_arrays) order_value'
    swap_setting swap_good_names (clean_reordered _ _ swap_reordered free_clean)) as (ar' & ps' & H').
  { lia. } { apply Nat.leb_le. reflexivity. } { vm_compute. reflexivity. }
  assert (Hnd : NoDup (params_index_of free_p)) by (apply (idx_NoDup free_model free_p); [apply free_setting|exact free_good_names|exact free_accepted]).
  assert (Hnd' : NoDup (params_index_of swap_p)) by (apply (idx_NoDup swap_model swap_p); [apply swap_setting|exact swap_good_names|exact swap_accepted]).
  set (val := val_of 0 (params_index_of free_p) (map order_value (params_index_of free_p))).
  set (val' := val_of 0 (params_index_of swap_p) (map order_value' (params_index_of swap_p))).
  assert (V : forall lb, val lb = if label_mem lb (params_index_of free_p) then order_value lb else 0).
  { intros lb. exact (listed_value _ order_value lb Hnd). }
  assert (V' : forall lb, val' lb = if label_mem lb (params_index_of swap_p) then order_value' lb else 0).
  { intros lb. exact (listed_value _ order_value' lb Hnd'). }
  assert (C0 : forall e f g b, (e < 1)%nat -> label_mem (CInitChol, O, mixture_name 0, cov_name f g) (params_index_of free_p) = b ->
    val (CInitChol, O, mixture_name e, cov_name f g) = if b then order_value (CInitChol, O, mixture_name 0, cov_name f g) else 0).
  { intros e f g b He E. assert (e = 0)%nat as -> by (clear -He; lia). rewrite V, E. reflexivity. }
  assert (C0' : forall e f g b, (e < 1)%nat -> label_mem (CInitChol, O, mixture_name 0, cov_name f g) (params_index_of swap_p) = b ->
    val' (CInitChol, O, mixture_name e, cov_name f g) = if b then order_value' (CInitChol, O, mixture_name 0, cov_name f g) else 0).
  { intros e f g b He E. assert (e = 0)%nat as -> by (clear -He; lia). rewrite V', E. reflexivity. }
  assert (Ccov : forall e f g, (e < 1)%nat -> initial_covariance free_model val e f g
    = val (CInitChol, O, mixture_name e, cov_name f "cog") * val (CInitChol, O, mixture_name e, cov_name g "cog")
      + (val (CInitChol, O, mixture_name e, cov_name f "soc") * val (CInitChol, O, mixture_name e, cov_name g "soc") + 0)).
  { intros e f g _. reflexivity. }
  assert (Ccov' : forall e f g, (e < 1)%nat -> initial_covariance swap_model val' e f g
    = val' (CInitChol, O, mixture_name e, cov_name f "soc") * val' (CInitChol, O, mixture_name e, cov_name g "soc")
      + (val' (CInitChol, O, mixture_name e, cov_name f "cog") * val' (CInitChol, O, mixture_name e, cov_name g "cog") + 0)).
  { intros e f g _. reflexivity. }
  assert (K1 : forall e, (e < 1)%nat -> val (CInitChol, O, mixture_name e, cov_name "cog" "cog") = 3).
  { intros e He. rewrite (C0 e "cog" "cog" true)%string; [reflexivity|exact He|vm_compute; reflexivity]. }
  assert (K2 : forall e, (e < 1)%nat -> val (CInitChol, O, mixture_name e, cov_name "soc" "cog") = 4).
  { intros e He. rewrite (C0 e "soc" "cog" true)%string; [reflexivity|exact He|vm_compute; reflexivity]. }
  assert (K3 : forall e, (e < 1)%nat -> val (CInitChol, O, mixture_name e, cov_name "soc" "soc") = 3).
  { intros e He. rewrite (C0 e "soc" "soc" true)%string; [reflexivity|exact He|vm_compute; reflexivity]. }
  assert (K4 : forall e, (e < 1)%nat -> val (CInitChol, O, mixture_name e, cov_name "cog" "soc") = 0).
  { intros e He. rewrite (C0 e "cog" "soc" false)%string; [reflexivity|exact He|vm_compute; reflexivity]. }
  assert (K1' : forall e, (e < 1)%nat -> val' (CInitChol, O, mixture_name e, cov_name "cog" "cog") = 9 / 5).
  { intros e He. rewrite (C0' e "cog" "cog" true)%string; [reflexivity|exact He|vm_compute; reflexivity]. }
  assert (K2' : forall e, (e < 1)%nat -> val' (CInitChol, O, mixture_name e, cov_name "soc" "cog") = 0).
  { intros e He. rewrite (C0' e "soc" "cog" false)%string; [reflexivity|exact He|vm_compute; reflexivity]. }
  assert (K3' : forall e, (e < 1)%nat -> val' (CInitChol, O, mixture_name e, cov_name "soc" "soc") = 5).
  { intros e He. rewrite (C0' e "soc" "soc" true)%string; [reflexivity|exact He|vm_compute; reflexivity]. }
  assert (K4' : forall e, (e < 1)%nat -> val' (CInitChol, O, mixture_name e, cov_name "cog" "soc") = 12 / 5).
  { intros e He. rewrite (C0' e "cog" "soc" true)%string; [reflexivity|exact He|vm_compute; reflexivity]. }
  exists ar, ps, val, ar', ps', val'.
  split; [|split; [exact H'|split; [vm_compute; reflexivity|split; [exact (values_ok _ order_value' Hnd')|
    split; [exact swap_reordered|split; [|split; [reflexivity|split; [reflexivity|split; [|split; [|split; [reflexivity|split; [reflexivity|]]]]]]]]]]]].
  - split; [|split; [exact H|split; [exact free_affine|split; [exact free_clean|split; [vm_compute; reflexivity|split; [|split; [right; reflexivity|
      split; [apply Nat.leb_le; reflexivity|split; [|split; [exact (values_ok _ order_value Hnd)|]]]]]]]]]].
    + intros f params env states. unfold plain_custom. destruct (dget params "q"), (dget env "inc"); eauto.
    + intros t Ht. assert (Ht' : t = 0%nat \/ t = 1%nat \/ t = 2%nat) by (clear -Ht; lia).
      exists "a"%string. destruct Ht' as [->|[->| ->]]; vm_compute; auto 20.
    + change (o_sigma_points_scale (p_options free_p)) with 2%Q. unfold Q2R. cbn. lra.
    + split.
      * intros t v Hv. rewrite V.
        assert (F := proj1 (forallb_forall (fun e => label_mem (CMeasSds, fst e, snd e, "-"%string) (params_index_of free_p)) (equations free_model 3)) ltac:(vm_compute; reflexivity) (t, v) Hv).
        cbn [fst snd] in F. rewrite F. cbn. lra.
      * intros t f o Ht Ho. rewrite V.
        assert (F := proj1 (forallb_forall (fun tfo : nat * (string * string) => label_mem (CLoadings, fst tfo, (snd (snd tfo) ++ "_" ++ fst (snd tfo))%string, fst (snd tfo)) (params_index_of free_p))
          (list_prod (seq 0 3) (outcomes_of free_model))) ltac:(vm_compute; reflexivity) (t, (f, o)) ltac:(apply in_prod; [apply in_seq; clear -Ht; lia|exact Ho])).
        cbn [fst snd] in F. rewrite F. cbn. lra.
  - split.
    + intros c t v x Hc. rewrite V, V'.
      rewrite (same_members (params_index_of free_p) (params_index_of swap_p) ltac:(vm_compute; reflexivity) ltac:(vm_compute; reflexivity) c t v x Hc).
      rewrite (order_values_agree c t v x Hc). reflexivity.
    + intros e f g He Hf Hg. change (n_mixtures_of free_model) with 1%nat in He. rewrite (Ccov e f g He), (Ccov' e f g He).
      assert (Hf2 : In f ["cog"; "soc"]%string) by exact Hf. assert (Hg2 : In g ["cog"; "soc"]%string) by exact Hg. clear Hf Hg.
      destruct Hf2 as [<-|[<-|[]]], Hg2 as [<-|[<-|[]]];
        rewrite ?(K1 e He), ?(K2 e He), ?(K3 e He), ?(K4 e He), ?(K1' e He), ?(K2' e He), ?(K3' e He), ?(K4' e He); field.
  - rewrite (Ccov 0%nat _ _ Nat.lt_0_1), (K1 0%nat Nat.lt_0_1), (K2 0%nat Nat.lt_0_1), (K3 0%nat Nat.lt_0_1), (K4 0%nat Nat.lt_0_1). ring.
  - vm_compute. discriminate.
  - split; (split; [eexists; vm_compute; reflexivity|]); intros j v Hj E.
    + assert (Hl : (j < 13)%nat) by (change 13%nat with (length (equations free_model 3)); apply nth_error_Some; rewrite E; discriminate).
      assert (F := proj1 (forallb_forall (fun j => match nth_error (equations free_model 3) j with Some (O, _) => false | _ => true end) (seq 5 8)) ltac:(vm_compute; reflexivity) j ltac:(apply in_seq; clear -Hj Hl; lia)).
      cbv beta in F. rewrite E in F. discriminate F.
    + assert (Hl : (j < 13)%nat) by (change 13%nat with (length (equations swap_model 3)); apply nth_error_Some; rewrite E; discriminate).
      assert (F := proj1 (forallb_forall (fun j => match nth_error (equations swap_model 3) j with Some (O, _) => false | _ => true end) (seq 5 8)) ltac:(vm_compute; reflexivity) j ltac:(apply in_seq; clear -Hj Hl; lia)).
      cbv beta in F. rewrite E in F. discriminate F.
Qed.

(** Two factors: the first one follows a translog function that is its own square, the
    second one is constant; and the same two factors in the other order. *)
Definition square_first (v : vec) : vec := fun f => match f with
  | O => get_ok (tf_translog [v 0%nat; v 1%nat] [0; 0; 1; 0; 0; 0]) 0
  | _ => v 1%nat
  end.
Definition square_second (v : vec) : vec := fun f => match f with
  | O => v 0%nat
  | _ => get_ok (tf_translog [v 0%nat; v 1%nat] [0; 0; 0; 1; 0; 0]) 0
  end.
Definition exchange (f : nat) : nat := (1 - f)%nat.
Definition first_chol : mat := fun a b => match a, b with O, O => 3 | O, _ => 4 | _, O => 0 | _, _ => 3 end.
Definition second_chol : mat := fun a b => match a, b with O, O => 5 | O, _ => 12 / 5 | _, O => 0 | _, _ => 9 / 5 end.

(** The part that is missing in [C97_factor_order_partial] is false of the code: with a
    translog transition function, the prediction step turns the same distribution of two
    factors into different distributions when the factors are listed in the other order.
    The sigma points are taken along the rows of the triangular square root, which depend
    on the order. *)
Theorem C97_nonlinear_refuted :
  forall qr, correct_qr qr ->
    (forall v f, (f < 2)%nat -> square_second (fun g => v (exchange g)) f = square_first v (exchange f)) /\
    upper_triangular 2 first_chol /\ upper_triangular 2 second_chol /\
    (forall f g, (f < 2)%nat -> (g < 2)%nat -> cov 2 second_chol f g = cov 2 first_chol (exchange f) (exchange g)) /\
    exists ps pc ps' pc',
      kalman_predict qr 1 1 2 0 (fun _ _ _ => 0) (fun _ _ => first_chol) (sigma_scaling_factor 2 2) (sigma_weights 2 2)
        square_first (fun _ => 1) (fun _ _ => 1) (fun _ _ => 0) (fun _ _ => 0) = Ok (ps, pc) /\
      kalman_predict qr 1 1 2 0 (fun _ _ _ => 0) (fun _ _ => second_chol) (sigma_scaling_factor 2 2) (sigma_weights 2 2)
        square_second (fun _ => 1) (fun _ _ => 1) (fun _ _ => 0) (fun _ _ => 0) = Ok (ps', pc') /\
      ps 0%nat 0%nat 0%nat = ps' 0%nat 0%nat 1%nat /\
      cov 2 (pc 0%nat 0%nat) 0%nat 0%nat <> cov 2 (pc' 0%nat 0%nat) 1%nat 1%nat.
Proof.
  intros qr Hqr.
  assert (S1 : forall v, square_first v 0%nat = v 0%nat ^ 2) by (intros v; cbn; ring).
  assert (S2 : forall v, square_second v 1%nat = v 1%nat ^ 2) by (intros v; cbn; ring).
  assert (Hc : sigma_scaling_factor 2 2 = 2).
  { unfold sigma_scaling_factor. cbn [INR]. replace (2 + (1 + 1)) with (2 * 2) by ring. apply sqrt_square. lra. }
  assert (Hw : forall s, (s < 2 * 2 + 1)%nat -> 0 <= sigma_weights 2 2 s).
  { intros s _. apply PredictFacts.weights_nonneg; cbn; lra. }
  split; [|split; [|split; [|split]]].
  - intros v [|[|f]] Hf; [reflexivity| |lia]. rewrite S2. unfold exchange. cbn [Nat.sub]. rewrite S1. reflexivity.
  - intros [|[|a]] [|[|b]] Ha Hb; try lia; reflexivity.
  - intros [|[|a]] [|[|b]] Ha Hb; try lia; reflexivity.
  - intros [|[|a]] [|[|b]] Ha Hb; try lia; unfold cov, first_chol, second_chol, exchange; cbn; field.
  - destruct (C38_scatter_plus_shocks qr Hqr 1 1 2 0 (fun _ _ _ => 0) (fun _ _ => first_chol) (sigma_scaling_factor 2 2) (sigma_weights 2 2)
      square_first (fun _ => 1) (fun _ _ => 1) (fun _ _ => 0) (fun _ _ => 0)) as (ps & pc & E & H).
    { now left. }
    { intros v w Hvw [|[|f]] Hf; [| |lia]; unfold square_first; rewrite ?(Hvw 0%nat ltac:(lia)), ?(Hvw 1%nat ltac:(lia)); reflexivity. }
    { exact Hw. }
    destruct (C38_scatter_plus_shocks qr Hqr 1 1 2 0 (fun _ _ _ => 0) (fun _ _ => second_chol) (sigma_scaling_factor 2 2) (sigma_weights 2 2)
      square_second (fun _ => 1) (fun _ _ => 1) (fun _ _ => 0) (fun _ _ => 0)) as (ps' & pc' & E' & H').
    { now left. }
    { intros v w Hvw [|[|f]] Hf; [| |lia]; unfold square_second; rewrite ?(Hvw 0%nat ltac:(lia)), ?(Hvw 1%nat ltac:(lia)); reflexivity. }
    { exact Hw. }
    exists ps, pc, ps', pc'. split; [exact E|]. split; [exact E'|].
    destruct (H 0%nat 0%nat ltac:(lia)) as (A & _ & C & _). destruct (H' 0%nat 0%nat ltac:(lia)) as (A' & _ & C' & _).
    rewrite (A 0%nat), (A' 1%nat), (C 0%nat 0%nat), (C' 1%nat 1%nat) by lia. clear -Hc S1 S2.
    rewrite Hc.
    set (t := transformed_points 2 (fun _ _ _ => 0) (fun _ _ => first_chol) 2 square_first (fun _ _ => 1) (fun _ _ => 0) (fun _ _ => 0) 0 0).
    set (t' := transformed_points 2 (fun _ _ _ => 0) (fun _ _ => second_chol) 2 square_second (fun _ _ => 1) (fun _ _ => 0) (fun _ _ => 0) 0 0).
    assert (T : forall k, t k 0%nat = sigma_point 2 (fun _ => 0) first_chol 2 k 0%nat ^ 2).
    { intros k. unfold t, transformed_points, anchored_transition. rewrite S1. unfold all_factors. cbn [Nat.ltb Nat.leb]. field. }
    assert (T' : forall k, t' k 1%nat = sigma_point 2 (fun _ => 0) second_chol 2 k 1%nat ^ 2).
    { intros k. unfold t', transformed_points, anchored_transition. rewrite S2. unfold all_factors. cbn [Nat.ltb Nat.leb]. field. }
    unfold weighted_scatter, weighted_mean. cbn [Nat.mul Nat.add rsum]. rewrite !T, !T'.
    clear. unfold sigma_point, sigma_weights, first_chol, second_chol. cbn -[pow Rdiv Rinv].
    split; lra.
Qed.
Print Assumptions C97_nonlinear_refuted.
