(** When two models give the filter the same inputs. *)
Require Import Reals Qreals String Arith ZArith Bool List Lia FunctionalExtensionality.
From Verif Require Import PyBase ListFacts ModelSpec ProcessModel CheckModel SpecModel ProcessModelFacts
  SpecParse SpecIndex IndexFacts SpecFacts ParamsIndex ParseParams ParseFacts AnchorFacts PropsParse ProcessData SpecData DataFacts PropsData
  RSum Kalman Likelihood SpecLikelihood ScheduleFacts LikelihoodRun PropsFiltered SpecModelDensity
  TransitionFunctions PropsTransition ModelInputs Runs.
Import ListNotations.
Open Scope R_scope.

Definition transitions_of (md : model_dict) : list (string * trans_spec) :=
  map (fun fa => (fst fa, fs_transition (snd fa))) (md_factors md).

Lemma transitions_latent md md' : transitions_of md' = transitions_of md -> latent_of md' = latent_of md.
Proof.
  intros E. unfold latent_of. assert (G : forall m, map fst (md_factors m) = map fst (transitions_of m)).
  { intros m. unfold transitions_of. now rewrite map_map. }
  now rewrite !G, E.
Qed.

Lemma related_tfunc nan neg_inf custom md md' p p' : process_model md = Ok p -> process_model md' = Ok p' ->
  transitions_of md' = transitions_of md -> observed_of md' = observed_of md ->
  model_tfunc nan neg_inf custom md' (p_labels p') = model_tfunc nan neg_inf custom md (p_labels p).
Proof.
  intros Hp Hp' Et Eo. pose proof (transitions_latent md md' Et) as El.
  destruct (p_labels_eq md p Hp) as (A & _). destruct (p_labels_eq _ p' Hp') as (A' & _).
  assert (L : l_latent (p_labels p') = l_latent (p_labels p)) by (now rewrite A, A').
  assert (Al : l_all (p_labels p') = l_all (p_labels p)).
  { rewrite (all_eq _ p' Hp'), (all_eq _ p Hp), El, Eo. reflexivity. }
  unfold model_tfunc, transition_function. rewrite L, Al. apply functional_extensionality. intros pa.
  apply functional_extensionality. intros row. apply functional_extensionality. intros f.
  rewrite (mapM_ext _ (fun f => rbind (dget_err (md_factors md) f) (fun fs =>
    next_state nan neg_inf custom (l_all (p_labels p)) f (fs_transition fs) pa (map row (seq 0 (length (l_all (p_labels p)))))))
    (l_latent (p_labels p))); [reflexivity|].
  intros g _. unfold dget_err. unfold transitions_of in Et. revert Et. generalize (md_factors md'). clear.
  induction (md_factors md) as [|[h fs] fd IH]; intros [|[h' fs'] fd'] Et; try discriminate; [reflexivity|].
  cbn [map dget fst snd] in *. injection Et as -> E2 Et.
  destruct (String.eqb g h); [cbn [rbind]; now rewrite E2|now apply IH].
Qed.

Section Related.
  Variables (md : model_dict) (p : processed) (n : nat) (df : frame R) (lv : list Z) (ar : arrays R)
    (params : list R) (ps : parsed R) (val : label -> R).
  Variables (md' : model_dict) (p' : processed) (n' : nat) (df' : frame R) (lv' : list Z) (ar' : arrays R)
    (params' : list R) (ps' : parsed R) (val' : label -> R).
  Variable ids : list Z.
  Hypothesis H : likelihood_setting md p n df ids lv ar params ps.
  Hypothesis Hval : parameter_values (params_index_of p) params val.
  Hypothesis Hclean : clean_anchoring md.
  Hypothesis H' : likelihood_setting md' p' n' df' ids lv' ar' params' ps'.
  Hypothesis Hval' : parameter_values (params_index_of p') params' val'.
  Hypothesis Hclean' : clean_anchoring md'.
  Hypothesis Hlat : latent_of md' = latent_of md.
  Hypothesis Hobs : observed_of md' = observed_of md.
  Hypothesis Hout : outcomes_of md' = outcomes_of md.
  Hypothesis Hign : ignores_constant md' = ignores_constant md.
  Hypothesis Hmix : n_mixtures_of md' = n_mixtures_of md.
  Variables given given' : Z -> nat -> string -> option R.
  Hypothesis Hgiven : forall id t x, In id ids -> (t < n)%nat -> handed_over 1 md n df lv id t x (given id t x).
  Hypothesis Hgiven' : forall id t x, In id ids -> (t < n')%nat -> handed_over 1 md' n' df' lv' id t x (given' id t x).

  Let inp := inputs_of ps ar.
  Let inp' := inputs_of ps' ar'.

  Lemma related_equation j j' t v :
    nth_error (equations md n) j = Some (t, v) -> nth_error (equations md' n') j' = Some (t, v) ->
    controls_of md' = controls_of md ->
    (forall f, In f (latent_of md) -> val (CLoadings, t, v, f) = val' (CLoadings, t, v, f)) ->
    (forall c, In c ("constant"%string :: controls_of md) -> val (CControls, t, v, c) = val' (CControls, t, v, c)) ->
    val (CMeasSds, t, v, "-"%string) = val' (CMeasSds, t, v, "-"%string) ->
    (forall id x, In id ids -> x = v \/ In x ("constant"%string :: controls_of md) -> given id t x = given' id t x) ->
    equation_agrees inp inp' j j' t.
  Proof.
    intros Hj Hj' Hc L C S G.
    assert (Ht : (t < n)%nat) by (apply (equations_period md n t v); eapply nth_error_In, Hj).
    assert (Ht' : (t < n')%nat) by (apply (equations_period md' n' t v); eapply nth_error_In, Hj').
    unfold equation_agrees, inp, inp'.
    rewrite (loading_form _ _ _ _ _ _ _ _ _ _ H' Hval' j' t v Hj'), (loading_form _ _ _ _ _ _ _ _ _ _ H Hval j t v Hj).
    rewrite (control_form _ _ _ _ _ _ _ _ _ _ H' Hval' j' t v Hj'), (control_form _ _ _ _ _ _ _ _ _ _ H Hval j t v Hj).
    rewrite (sd_form _ _ _ _ _ _ _ _ _ _ H' Hval' j' t v Hj'), (sd_form _ _ _ _ _ _ _ _ _ _ H Hval j t v Hj).
    rewrite (values_form _ _ _ _ _ _ _ _ _ H' _ Hgiven' j' t v Hj'), (values_form _ _ _ _ _ _ _ _ _ H _ Hgiven j t v Hj).
    rewrite (controls_form _ _ _ _ _ _ _ _ _ H' _ Hgiven' t Ht'), (controls_form _ _ _ _ _ _ _ _ _ H _ Hgiven t Ht).
    rewrite Hlat, Hc. split; [|split; [|split; [exact S|split]]]; f_equal; apply map_ext_in.
    - exact L.
    - exact C.
    - intros id Hid. apply G; [exact Hid|now left].
    - intros id Hid. apply map_ext_in. intros c Hin. apply G; [exact Hid|now right].
  Qed.

  Lemma related_scaling t : (t < n)%nat -> (t < n')%nat ->
    (forall fo, In fo (outcomes_of md) -> val (CLoadings, t, copy_name fo, fst fo) = val' (CLoadings, t, copy_name fo, fst fo)) ->
    in_scaling inp t = in_scaling inp' t.
  Proof.
    intros Ht Ht' L. unfold inp, inp'.
    rewrite (scaling_form _ _ _ _ _ _ _ _ _ _ H Hval t Hclean Ht), (scaling_form _ _ _ _ _ _ _ _ _ _ H' Hval' t Hclean' Ht').
    rewrite Hlat, Hobs, Hout.
    assert (Ea : map (is_anchored md') (latent_of md) = map (is_anchored md) (latent_of md)).
    { apply map_ext. intros f. unfold is_anchored. now rewrite Hout. }
    rewrite Ea. do 3 f_equal. apply map_ext_in. intros fo Hfo. now apply L.
  Qed.

  Lemma related_constants t : (t < n)%nat -> (t < n')%nat ->
    (forall fo, In fo (outcomes_of md) ->
       val (CControls, t, copy_name fo, "constant"%string) = val' (CControls, t, copy_name fo, "constant"%string)) ->
    in_constants inp t = in_constants inp' t.
  Proof.
    intros Ht Ht' L. unfold inp, inp'.
    rewrite (constants_form _ _ _ _ _ _ _ _ _ _ H Hval t Hclean Ht), (constants_form _ _ _ _ _ _ _ _ _ _ H' Hval' t Hclean' Ht').
    rewrite Hlat, Hobs, Hout, Hign.
    assert (Ea : map (is_anchored md') (latent_of md) = map (is_anchored md) (latent_of md)).
    { apply map_ext. intros f. unfold is_anchored. now rewrite Hout. }
    rewrite Ea. destruct (ignores_constant md); [reflexivity|]. do 3 f_equal. apply map_ext_in. intros fo Hfo. now apply L.
  Qed.

  Lemma related_coeffs t : (t + 1 < n)%nat -> (t + 1 < n')%nat -> transitions_of md' = transitions_of md ->
    (forall f x, val (CTransition, t, f, x) = val' (CTransition, t, f, x)) ->
    in_coeffs inp t = in_coeffs inp' t.
  Proof.
    intros Ht Ht' Et L. unfold inp, inp'.
    rewrite (coeffs_form _ _ _ _ _ _ _ _ _ _ H Hval t Ht), (coeffs_form _ _ _ _ _ _ _ _ _ _ H' Hval' t Ht').
    rewrite Hlat, Hobs.
    set (g := fun (v : label -> R) (ft : string * trans_spec) => (fst ft, map (fun name => v (CTransition, t, fst ft, name))
       (transition_parameters (latent_of md ++ observed_of md) (snd ft)))).
    assert (G : forall v m, map (fun ffs => (fst ffs, map (fun name => v (CTransition, t, fst ffs, name))
       (transition_parameters (latent_of md ++ observed_of md) (fs_transition (snd ffs))))) (md_factors m) = map (g v) (transitions_of m)).
    { intros v m. unfold transitions_of. rewrite map_map. reflexivity. }
    rewrite !G, Et. apply map_ext. intros ft. unfold g. f_equal. apply map_ext. intros x. apply L.
  Qed.

  Lemma related_shocks t : (t + 1 < n)%nat -> (t + 1 < n')%nat ->
    (forall f, In f (latent_of md) -> val (CShockSds, t, f, "-"%string) = val' (CShockSds, t, f, "-"%string)) ->
    in_shock_sds inp t = in_shock_sds inp' t.
  Proof.
    intros Ht Ht' L. unfold inp, inp'.
    rewrite (shock_form _ _ _ _ _ _ _ _ _ _ H Hval t Ht), (shock_form _ _ _ _ _ _ _ _ _ _ H' Hval' t Ht'). rewrite Hlat.
    f_equal. now apply map_ext_in.
  Qed.

  Lemma related_observed t : (t < n)%nat -> (t < n')%nat ->
    (forall id x, In id ids -> In x (observed_of md) -> given id t x = given' id t x) ->
    in_observed inp t = in_observed inp' t.
  Proof.
    intros Ht Ht' G. unfold inp, inp'.
    rewrite (observed_form _ _ _ _ _ _ _ _ _ H _ Hgiven t Ht), (observed_form _ _ _ _ _ _ _ _ _ H' _ Hgiven' t Ht').
    rewrite Hobs. f_equal. apply map_ext_in. intros id Hid. apply map_ext_in. intros x Hx. now apply G.
  Qed.

  Lemma related_initial :
    (forall e f, val (CInitStates, O, e, f) = val' (CInitStates, O, e, f)) ->
    (forall e x, val (CInitChol, O, e, x) = val' (CInitChol, O, e, x)) ->
    (forall e, val (CMixWeights, O, e, "-"%string) = val' (CMixWeights, O, e, "-"%string)) ->
    initial_belief ps = initial_belief ps'.
  Proof.
    intros A B C. rewrite (initial_form _ _ _ _ _ _ _ _ _ _ H Hval), (initial_form _ _ _ _ _ _ _ _ _ _ H' Hval').
    rewrite Hlat, Hmix. f_equal; do 2 f_equal; apply map_ext; intros e.
    - apply map_ext. intros f. apply A.
    - apply map_ext. intros r. apply map_ext. intros c. destruct (r <=? c)%nat; [apply B|reflexivity].
    - now rewrite C.
  Qed.
End Related.
