(** Removing controls from a model is the same as setting their coefficients to zero (C95). *)
Require Import Reals Qreals Lra String Arith ZArith Bool List Lia FunctionalExtensionality.
From Verif Require Import PyBase ListFacts ModelSpec ProcessModel CheckModel SpecModel ProcessModelFacts
  SpecParse SpecIndex IndexFacts SpecFacts ParamsIndex ParseParams ParseFacts AnchorFacts PropsParse ProcessData SpecData DataFacts PropsData
  RSum Kalman PropsKalman Likelihood SpecLikelihood ScheduleFacts LikelihoodRun PropsFiltered SpecModelDensity
  LikelihoodFacts ExampleModels PropsSpec PropsLikelihood QRWitness PropsNumerics Renormalization PropsRenormalization TransitionFunctions PropsTransition
  Utilities SpecUtilities UtilitiesFacts ParamsVec ModelInputs Runs Related PropsPrefix PropsRemoved.
Import ListNotations.
Open Scope R_scope.

(** ** Updates only depend on the contribution of all controls together *)

Lemma kalman_update_controls qr nan nm n nc nc' states chols loadings cp cp' sd meas ctrl ctrl' logw :
  (forall i, meas i <> None -> dot nc (fun c => to_number nan (ctrl i c)) cp = dot nc' (fun c => to_number nan (ctrl' i c)) cp') ->
  kalman_update qr nan nm n nc states chols loadings cp sd meas ctrl logw
  = kalman_update qr nan nm n nc' states chols loadings cp' sd meas ctrl' logw.
Proof.
  intros Hd.
  assert (E : forall i, dot nc (fun c => if isfinite (meas i) then to_number nan (ctrl i c) else 0) cp
    = dot nc' (fun c => if isfinite (meas i) then to_number nan (ctrl' i c) else 0) cp').
  { intros i. destruct (meas i) as [x|] eqn:Em; cbn [isfinite].
    - apply Hd. congruence.
    - unfold dot. rewrite (rsum_ext nc _ (fun _ => 0)) by (intros; ring).
      rewrite (rsum_ext nc' _ (fun _ => 0)) by (intros; ring). rewrite !rsum_zero by reflexivity. reflexivity. }
  unfold kalman_update. cbv zeta. f_equal; apply functional_extensionality; intros i; rewrite (E i); reflexivity.
Qed.

Section Same.
  Variable qr : qr_function.
  Variable nan : R.
  Variables tfunc tfunc' : dict (list R) -> vec -> vec.
  Variables (n_obs nm n no nc nc' : nat) (kappa : R) (inp inp' : inputs).

  Definition equation_same (k k' t : nat) : Prop :=
    in_loadings inp k = in_loadings inp' k' /\ in_sd inp k = in_sd inp' k' /\ in_values inp k = in_values inp' k' /\
    forall i, in_values inp k i <> None ->
      dot nc (fun c => to_number nan (in_controls inp t i c)) (in_control_params inp k)
      = dot nc' (fun c => to_number nan (in_controls inp' t i c)) (in_control_params inp' k').

  Inductive event_same : event -> event -> Prop :=
  | sa_measure k k' t : equation_same k k' t -> event_same (Measure k t) (Measure k' t)
  | sa_anchor k k' t : equation_same k k' t -> event_same (Anchor k t) (Anchor k' t)
  | sa_transition t : transition_agrees tfunc tfunc' inp inp' t -> event_same (Transition t) (Transition t).

  Lemma update_same a k k' t b : equation_same k k' t ->
    update_event qr nan nm n nc inp a k t b = update_event qr nan nm n nc' inp' a k' t b.
  Proof.
    intros (A & B & C & D). unfold update_event. rewrite A, B, <- C.
    rewrite (kalman_update_controls qr nan nm n nc nc' _ _ _ (in_control_params inp k) (in_control_params inp' k') _ _
      (in_controls inp t) (in_controls inp' t) _ D). reflexivity.
  Qed.

  Lemma run_same_controls evs evs' : Forall2 event_same evs evs' -> forall b,
    run qr nan tfunc n_obs nm n no nc kappa inp evs b = run qr nan tfunc' n_obs nm n no nc' kappa inp' evs' b.
  Proof.
    induction 1 as [|e e' evs evs' He _ IH]; intros b; [reflexivity|]. destruct He as [k k' t He|k k' t He|t He]; cbn [run].
    - rewrite (update_same false k k' t b He). destruct (update_event qr nan nm n nc' inp' false k' t b) as [b' r].
      cbn [fst snd]. now rewrite IH.
    - rewrite (update_same true k k' t b He). destruct (update_event qr nan nm n nc' inp' true k' t b) as [b' r].
      cbn [fst snd]. now rewrite IH.
    - rewrite (transition_event_agrees qr nan tfunc tfunc' n_obs nm n no kappa inp inp' t b He).
      destruct (transition_event qr nan tfunc' n_obs nm n no kappa inp' t b); [|reflexivity]. cbn [rbind]. apply IH.
  Qed.
End Same.

Lemma dot_lists {A} nan (g : A -> option R) (h : A -> R) l :
  dot (length l) (fun j => to_number nan (oarr1 (map g l) j)) (arr1 (map h l)) = sum_list (map (fun x => to_number nan (g x) * h x) l).
Proof.
  unfold dot, oarr1, arr1. induction l as [|x l IH]; [reflexivity|].
  cbn [length map sum_list fold_right]. rewrite rsum_S_l. cbn [nth]. unfold sum_list in IH. now rewrite IH.
Qed.

Lemma sum_filter {A} (q : A -> bool) (g : A -> R) l : (forall x, In x l -> q x = false -> g x = 0) ->
  sum_list (map g (filter q l)) = sum_list (map g l).
Proof.
  induction l as [|x l IH]; intros Hq; [reflexivity|]. cbn [filter map sum_list fold_right].
  assert (IH' : sum_list (map g (filter q l)) = sum_list (map g l)) by (apply IH; intros y Hy; apply Hq; now right).
  destruct (q x) eqn:E; cbn [map sum_list fold_right]; unfold sum_list in IH'; rewrite IH'; [reflexivity|].
  rewrite (Hq x (or_introl eq_refl) E). ring.
Qed.

Definition not_removed_control (cs : names) (lb : label) : Prop :=
  match lb with (CControls, _, _, c) => c = "constant"%string \/ ~ named cs c | _ => True end.

Section Controls.
  Variable qr : qr_function.
  Variables nan neg_inf : R.
  Variable custom : string -> dict R -> dict R -> list R -> result R.
  Variables (md : model_dict) (p : processed) (n : nat) (df : frame R) (ids lv : list Z) (ar : arrays R)
    (params : list R) (ps : parsed R) (val : label -> R) (cs : names) (reduced : option (list string)).
  Let md' := mk_md (md_factors md) (md_observed md) reduced (md_stagemap md) (md_anchoring md) (md_options md).
  Hypothesis Hred : controls_of md' = remove_from_list (controls_of md) cs.
  Variables (p' : processed) (ar' : arrays R) (params' : list R) (ps' : parsed R) (val' : label -> R).
  Hypothesis H : likelihood_setting md p n df ids lv ar params ps.
  Hypothesis Hclean : clean_anchoring md.
  Hypothesis Hval : parameter_values (params_index_of p) params val.
  Hypothesis H' : likelihood_setting md' p' n df ids lv ar' params' ps'.
  Hypothesis Hval' : parameter_values (params_index_of p') params' val'.
  Hypothesis Hsame : forall lb, In lb (params_index_of p') -> val' lb = val lb.
  Hypothesis Hzero : forall t v c, In (t, v) (equations md n) -> In c (controls_of md) -> named cs c -> val (CControls, t, v, c) = 0.
  Hypothesis Hdisc : forall id t, In id ids -> (t < n)%nat -> discarded 1 md n df lv id t <-> discarded 1 md' n df lv id t.

  Let Hwf : wf_dicts md. Proof. apply H. Qed.
  Let Hp : process_model md = Ok p. Proof. apply H. Qed.
  Let Hn : has_n_periods md n. Proof. apply H. Qed.
  Let Hwf' : wf_dicts md'. Proof. apply H'. Qed.
  Let Hp' : process_model md' = Ok p'. Proof. apply H'. Qed.
  Let Hn' : has_n_periods md' n. Proof. apply H'. Qed.
  Let inp := inputs_of ps ar.
  Let inp' := inputs_of ps' ar'.
  Let tfunc := model_tfunc nan neg_inf custom md (p_labels p).

  Lemma uncontrolled_param lb : not_removed_control cs lb -> is_param md lb -> is_param md' lb.
  Proof.
    intros Hlb Hi.
    destruct Hi as [t v c Hf Hc|t v f Hi Hf|t v Hf|t f m Hm Ht Hf|e f He Hf|e He|e row col fr fc He Hr Hc Hle|t m f fs name Hm Ht Hf Hname].
    - constructor; [exact Hf|]. destruct Hc as [Hc|Hc]; [now left|]. destruct Hlb as [Hlb|Hlb]; [now left|right].
      rewrite Hred. now apply remove_from_list_In.
    - now constructor.
    - now constructor.
    - now apply (par_shock_sd md' t f m).
    - now constructor.
    - now constructor.
    - now apply (par_initial_chol md' e row col fr fc).
    - now apply (par_transition md' t m f fs name).
  Qed.

  Lemma uncontrolled_values lb : not_removed_control cs lb -> val lb = val' lb.
  Proof.
    intros Hlb. destruct (in_dec label_eq_dec lb (params_index_of p')) as [I|N]; [symmetry; now apply Hsame|].
    rewrite (proj2 Hval' lb N). apply (proj2 Hval). intros F. apply N.
    apply (In_params_index md' p' lb Hwf' Hp'). apply uncontrolled_param; [exact Hlb|].
    now apply (In_params_index md p lb Hwf Hp).
  Qed.

  Lemma uncontrolled_clean : clean_anchoring md'.
  Proof. exact Hclean. Qed.

  Let given := given_value md n df lv.
  Let Hgiven : forall id t x, In id ids -> (t < n)%nat -> handed_over 1 md n df lv id t x (given id t x).
  Proof. intros. apply given_handed. Qed.
  Let Hgiven' : forall id t x, In id ids -> (t < n)%nat -> handed_over 1 md' n df lv id t x (given id t x).
  Proof.
    intros id t x Hid Ht. destruct (given_handed md n df lv id t x) as [A B]. split.
    - intros D. apply A, Hdisc; assumption.
    - intros D. apply B. intros F. apply D, Hdisc; assumption.
  Qed.

  Lemma uncontrolled_equation j t v : nth_error (equations md n) j = Some (t, v) ->
    equation_same nan (S (length (controls_of md))) (S (length (controls_of md'))) inp inp' j j t.
  Proof.
    intros Hj. assert (Ht : (t < n)%nat) by (apply (equations_period md n t v); eapply nth_error_In, Hj).
    assert (Hj' : nth_error (equations md' n) j = Some (t, v)) by exact Hj.
    unfold equation_same, inp, inp'.
    rewrite (loading_form _ _ _ _ _ _ _ _ _ _ H' Hval' j t v Hj'), (loading_form _ _ _ _ _ _ _ _ _ _ H Hval j t v Hj).
    rewrite (control_form _ _ _ _ _ _ _ _ _ _ H' Hval' j t v Hj'), (control_form _ _ _ _ _ _ _ _ _ _ H Hval j t v Hj).
    rewrite (sd_form _ _ _ _ _ _ _ _ _ _ H' Hval' j t v Hj'), (sd_form _ _ _ _ _ _ _ _ _ _ H Hval j t v Hj).
    rewrite (values_form _ _ _ _ _ _ _ _ _ H' _ Hgiven' j t v Hj'), (values_form _ _ _ _ _ _ _ _ _ H _ Hgiven j t v Hj).
    rewrite (controls_form _ _ _ _ _ _ _ _ _ H' _ Hgiven' t Ht), (controls_form _ _ _ _ _ _ _ _ _ H _ Hgiven t Ht).
    split; [|split; [|split; [reflexivity|]]].
    - f_equal. apply map_ext. intros f. now apply uncontrolled_values.
    - now apply uncontrolled_values.
    - intros i Hi. destruct (nth_error ids i) as [id|] eqn:Ei.
      2: { exfalso. apply Hi. unfold oarr1. apply nth_overflow. rewrite map_length. now apply nth_error_None. }
      unfold oarr2.
      rewrite (nth_of_nth_error (map (fun id => map (given id t) ("constant"%string :: controls_of md)) ids) i _ [] (map_nth_error _ _ _ Ei)).
      rewrite (nth_of_nth_error (map (fun id => map (given id t) ("constant"%string :: controls_of md')) ids) i _ [] (map_nth_error _ _ _ Ei)).
      change (S (length (controls_of md))) with (length ("constant"%string :: controls_of md)).
      change (S (length (controls_of md'))) with (length ("constant"%string :: controls_of md')).
      rewrite !dot_lists. cbn [map sum_list fold_right]. f_equal.
      + f_equal. apply uncontrolled_values. now left.
      + rewrite Hred. unfold remove_from_list.
        transitivity (sum_list (map (fun x => to_number nan (given id t x) * val (CControls, t, v, x))
          (filter (fun c => negb (smem c (as_list cs))) (controls_of md)))).
        * symmetry. apply (sum_filter (fun c => negb (smem c (as_list cs)))). intros c Hc Hr.
          rewrite (Hzero t v c (nth_error_In _ _ Hj) Hc); [ring|]. apply named_smem. now destruct (smem c (as_list cs)).
        * unfold sum_list. f_equal. apply map_ext_in. intros c Hc. apply filter_In in Hc as [_ Hc]. f_equal.
          apply uncontrolled_values. right. now apply not_named_smem.
  Qed.

  Lemma uncontrolled_transition t : (S t < n)%nat -> transition_agrees tfunc tfunc inp inp' t.
  Proof.
    intros Ht.
    assert (Es : forall s, (s < n)%nat -> in_scaling inp s = in_scaling inp' s).
    { intros s Hs. refine (related_scaling md p n df lv ar params ps val md' p' n df lv ar' params' ps' val' ids H Hval Hclean H' Hval' uncontrolled_clean eq_refl
        eq_refl eq_refl s Hs Hs _). intros fo Hfo. now apply uncontrolled_values. }
    assert (Ec : forall s, (s < n)%nat -> in_constants inp s = in_constants inp' s).
    { intros s Hs. refine (related_constants md p n df lv ar params ps val md' p' n df lv ar' params' ps' val' ids H Hval Hclean H' Hval' uncontrolled_clean eq_refl
        eq_refl eq_refl eq_refl s Hs Hs _). intros fo Hfo. apply uncontrolled_values. now left. }
    split; [|split; [|split; [|split; [|split; [|split]]]]]; try (apply Es; lia); try (apply Ec; lia).
    - f_equal. refine (related_coeffs md p n df lv ar params ps val md' p' n df lv ar' params' ps' val' ids H Hval H' Hval' eq_refl eq_refl t _ _ eq_refl _); try lia.
      intros f x. now apply uncontrolled_values.
    - refine (related_shocks md p n df lv ar params ps val md' p' n df lv ar' params' ps' val' ids H Hval H' Hval' eq_refl t _ _ _); try lia.
      intros f _. now apply uncontrolled_values.
    - refine (related_observed md p n df lv ar params ps md' p' n df lv ar' params' ps' ids H H' eq_refl _ _ Hgiven Hgiven' t _ _ _); try lia.
      intros id x Hid Hx. reflexivity.
  Qed.

  Lemma uncontrolled_initial : initial_belief ps = initial_belief ps'.
  Proof.
    refine (related_initial md p n df lv ar params ps val md' p' n df lv ar' params' ps' val' ids H Hval H' Hval' eq_refl eq_refl _ _ _);
      intros; now apply uncontrolled_values.
  Qed.

  Lemma uncontrolled_run :
    run_model qr nan tfunc p (length ids) ps ar (code_events 0 (purposes (p_update p)))
    = run_model qr nan (model_tfunc nan neg_inf custom md' (p_labels p')) p' (length ids) ps' ar' (code_events 0 (purposes (p_update p'))).
  Proof.
    rewrite (related_tfunc nan neg_inf custom md md' p p' Hp Hp' eq_refl eq_refl). unfold run_model. rewrite <- uncontrolled_initial.
    destruct (p_dims_eq md p Hp) as (D1 & D2 & D3 & D4 & _). destruct (p_dims_eq md' p' Hp') as (D1' & D2' & D3' & D4' & _).
    rewrite D1', D2', D3', D4', D1, D2, D3, D4.
    rewrite (p_options_eq _ _ Hp), (p_options_eq _ _ Hp').
    rewrite (purposes_equations md p n Hwf Hp Hn), (purposes_equations md' p' n Hwf' Hp' Hn').
    apply (run_same_controls qr nan tfunc tfunc (length ids) (n_mixtures_of md) (length (latent_of md)) (length (observed_of md))
      (S (length (controls_of md))) (S (length (controls_of md'))) _ inp inp').
    change (equations md' n) with (equations md n).
    apply code_events_Forall.
    - intros i t b Hi. rewrite nth_error_map in Hi.
      destruct (nth_error (equations md n) i) as [[s v]|] eqn:Ei; [|discriminate]. injection Hi as <- <-.
      pose proof (uncontrolled_equation i s v Ei) as Ag. unfold ev. cbn [fst snd]. rewrite Nat.add_0_l.
      change (is_anchoring_equation md' v) with (is_anchoring_equation md v).
      destruct (is_anchoring_equation md v); now constructor.
    - intros i t b b' _ Hi. rewrite nth_error_map in Hi.
      destruct (nth_error (equations md n) (S i)) as [[s v]|] eqn:Ei; [|discriminate]. injection Hi as Es _. cbn [fst] in Es. subst s.
      constructor. apply uncontrolled_transition. apply (equations_period md n _ v). eapply nth_error_In, Ei.
  Qed.
End Controls.

Lemma same_recs o n_obs recs b debug out b' out' n_updates nm n : reports o n_obs recs b debug out -> reports o n_obs recs b' debug out' ->
  b = b' -> length recs = n_updates -> same_output n_obs n_updates nm n out out'.
Proof.
  intros Hr Hr' <- Hl. apply (same_outputs _ _ _ _ _ _ _ _ _ _ _ Hr Hr' Hl).
  intros i _. clear. induction recs as [|r recs IH]; constructor; [|exact IH]. split; [reflexivity|].
  intros m Hm. repeat split.
Qed.

(** Two models with the same dimensions and options whose runs and initial beliefs
    coincide have the same output. *)
Lemma same_runs_length qr nan tfunc md p n df ids lv ar params ps tfunc' md' p' df' lv' ar' params' ps' debug :
  likelihood_setting md p n df ids lv ar params ps -> likelihood_setting md' p' n df' ids lv' ar' params' ps' ->
  length (equations md' n) = length (equations md n) -> n_mixtures_of md' = n_mixtures_of md -> length (observed_of md') = length (observed_of md) ->
  process_estimation_options md' = process_estimation_options md ->
  run_model qr nan tfunc p (length ids) ps ar (code_events 0 (purposes (p_update p)))
  = run_model qr nan tfunc' p' (length ids) ps' ar' (code_events 0 (purposes (p_update p'))) ->
  initial_belief ps = initial_belief ps' ->
  match log_likelihood qr nan tfunc p ar debug params, log_likelihood qr nan tfunc' p' ar' debug params' with
  | Ok out, Ok out' => same_output (length ids) (length (equations md n)) (n_mixtures_of md) (length (latent_of md)) out out'
  | Err e, Err e' => e = e'
  | _, _ => False
  end.
Proof.
  intros H H' Eeq Emix Eobs Eopt Erun Einit.
  assert (Hwf : wf_dicts md) by apply H. assert (Hp : process_model md = Ok p) by apply H.
  assert (Hn : has_n_periods md n) by apply H.
  assert (Hwf' : wf_dicts md') by apply H'. assert (Hp' : process_model md' = Ok p') by apply H'.
  assert (Hn' : has_n_periods md' n) by apply H'.
  assert (Hlu : length (p_update p) = length (equations md n)).
  { rewrite (equations_update md p n Hwf Hp Hn). now rewrite map_length. }
  assert (Hlu' : length (p_update p') = length (equations md n)).
  { rewrite <- Eeq. rewrite (equations_update md' p' n Hwf' Hp' Hn'). now rewrite map_length. }
  destruct (p_dims_eq md p Hp) as (_ & D2 & _ & D4 & _). destruct (p_dims_eq md' p' Hp') as (_ & D2' & _ & D4' & _).
  destruct (shapes_fit (length ids) (n_mixtures (p_dims p)) (n_observed (p_dims p))) eqn:Hfit.
  - assert (Hfit' : shapes_fit (length ids) (n_mixtures (p_dims p')) (n_observed (p_dims p')) = true).
    { rewrite D2', D4', Eobs, Emix. rewrite D2, D4 in Hfit. exact Hfit. }
    destruct (likelihood_events qr nan tfunc md p n df ids lv ar params ps debug H Hfit) as (recs & out & Er & Hl & -> & Hr).
    destruct (likelihood_events qr nan tfunc' md' p' n df' ids lv' ar' params' ps' debug H' Hfit') as (recs' & out' & Er' & Hl' & -> & Hr').
    assert (recs' = recs) as -> by (rewrite Er in Erun; rewrite Er' in Erun; now injection Erun).
    rewrite (p_options_eq _ _ Hp'), Eopt in Hr'. rewrite (p_options_eq _ _ Hp) in Hr.
    apply (same_recs _ _ _ _ _ _ _ _ _ _ _ Hr Hr' Einit). congruence.
  - assert (Hfit' : shapes_fit (length ids) (n_mixtures (p_dims p')) (n_observed (p_dims p')) = false).
    { rewrite D2', D4', Eobs, Emix. rewrite D2, D4 in Hfit. exact Hfit. }
    destruct (equations md n) as [|e l0] eqn:Ee.
    + assert (Eu : p_update p = []) by (now apply length_zero_iff_nil).
      assert (Eu' : p_update p' = []) by (now apply length_zero_iff_nil).
      unfold log_likelihood. destruct (ar_shapes md p n df ids lv ar params ps H) as (_ & _ & ->).
      destruct (ar_shapes md' p' n df' ids lv' ar' params' ps' H') as (_ & _ & ->).
      assert (Hps : parse_for 0 1 ln p params (length ids) = Ok ps) by apply H. rewrite Hps.
      assert (Hps' : parse_for 0 1 ln p' params' (length ids) = Ok ps') by apply H'. rewrite Hps'. cbn [rbind].
      rewrite (loop_args_ok md p n df ids lv ar params ps H), Eu.
      rewrite (loop_args_ok md' p' n df' ids lv' ar' params' ps' H'), Eu'. cbn [length seq map rbind scan snd].
      split; [reflexivity|]. split; [reflexivity|]. cbn [out_debug]. destruct debug; [|exact I].
      intros i k _ Hk. cbn [length] in Hk. lia.
    + rewrite (likelihood_misfits qr nan tfunc md p n df ids lv ar params ps debug H Hfit)
        by (intros F; rewrite F in Hlu; discriminate).
      rewrite (likelihood_misfits qr nan tfunc' md' p' n df' ids lv' ar' params' ps' debug H' Hfit')
        by (intros F; rewrite F in Hlu'; discriminate).
      reflexivity.
Qed.

Lemma same_runs qr nan tfunc md p n df ids lv ar params ps tfunc' md' p' df' lv' ar' params' ps' debug :
  likelihood_setting md p n df ids lv ar params ps -> likelihood_setting md' p' n df' ids lv' ar' params' ps' ->
  equations md' n = equations md n -> n_mixtures_of md' = n_mixtures_of md -> length (observed_of md') = length (observed_of md) ->
  process_estimation_options md' = process_estimation_options md ->
  run_model qr nan tfunc p (length ids) ps ar (code_events 0 (purposes (p_update p)))
  = run_model qr nan tfunc' p' (length ids) ps' ar' (code_events 0 (purposes (p_update p'))) ->
  initial_belief ps = initial_belief ps' ->
  match log_likelihood qr nan tfunc p ar debug params, log_likelihood qr nan tfunc' p' ar' debug params' with
  | Ok out, Ok out' => same_output (length ids) (length (equations md n)) (n_mixtures_of md) (length (latent_of md)) out out'
  | Err e, Err e' => e = e'
  | _, _ => False
  end.
Proof.
  intros H H' Eeq. apply (same_runs_length qr nan tfunc md p n df ids lv ar params ps tfunc' md' p' df' lv' ar' params' ps' debug H H').
  now rewrite Eeq.
Qed.

(** *** C95 Removing controls equals setting their coefficients to zero
    [remove_controls] without parameters gives a model [md'] whose likelihood, on the same
    data and with the same values of the remaining parameters, is the one of the full model
    in which all coefficients of the removed controls are zero; all debug outputs agree as
    well.  A removed control may only be missing where the observation does not count
    anyway: it is also discarded for another control, or nothing is measured. *)
Theorem C95_removed_controls :
  forall qr nan neg_inf custom md p n df ids lv ar params ps val controls md' p' ar' params' ps' val' debug,
    likelihood_setting md p n df ids lv ar params ps -> clean_anchoring md ->
    parameter_values (params_index_of p) params val ->
    remove_controls controls md None = Ok (md', None) ->
    likelihood_setting md' p' n df ids lv ar' params' ps' ->
    parameter_values (params_index_of p') params' val' ->
    (forall lb, In lb (params_index_of p') -> val' lb = val lb) ->
    (forall t v c, In (t, v) (equations md n) -> In c (controls_of md) -> named controls c -> val (CControls, t, v, c) = 0) ->
    (forall id t c, In id ids -> (t < n)%nat -> In c (controls_of md) -> named controls c -> value 1 md df lv id t c = None ->
       discarded 1 md' n df lv id t \/ forall v, In (t, v) (equations md n) -> value 1 md df lv id t v = None) ->
    match log_likelihood qr nan (model_tfunc nan neg_inf custom md (p_labels p)) p ar debug params,
          log_likelihood qr nan (model_tfunc nan neg_inf custom md' (p_labels p')) p' ar' debug params' with
    | Ok out, Ok out' => same_output (length ids) (length (equations md n)) (n_mixtures_of md) (length (latent_of md)) out out'
    | Err e, Err e' => e = e'
    | _, _ => False
    end.
Proof.
  intros qr nan neg_inf custom md p n df ids lv ar params ps val cs md' p' ar' params' ps' val' debug
    H Hclean Hval Hrem H' Hval' Hsame Hzero Hmiss.
  unfold remove_controls in Hrem. destruct (md_controls md) as [l|] eqn:Ec; [|discriminate].
  set (reduced := match remove_from_list l cs with [] => None | x => Some x end) in *.
  cbn [with_params] in Hrem. injection Hrem as Emd. subst md'.
  set (md' := mk_md (md_factors md) (md_observed md) reduced (md_stagemap md) (md_anchoring md) (md_options md)) in *.
  assert (Hred : controls_of md' = remove_from_list (controls_of md) cs).
  { unfold controls_of, md'. cbn [md_controls]. rewrite Ec. unfold reduced. now destruct (remove_from_list l cs). }
  assert (Hdisc : forall id t, In id ids -> (t < n)%nat -> discarded 1 md n df lv id t <-> discarded 1 md' n df lv id t).
  { intros id t Hid Ht. split.
    - intros [(c & Hc & Hv) (v & Hin & Hv')]. destruct (smem c (as_list cs)) eqn:Em.
      + apply named_smem in Em. destruct (Hmiss id t c Hid Ht Hc Em Hv) as [D|D]; [exact D|]. destruct (Hv' (D v Hin)).
      + split; [exists c; split; [|exact Hv]|exists v; split; [exact Hin|exact Hv']].
        rewrite Hred. apply remove_from_list_In. split; [exact Hc|]. apply not_named_smem. now rewrite Em.
    - intros [(c & Hc & Hv) (v & Hin & Hv')]. rewrite Hred in Hc. apply remove_from_list_In in Hc as [Hc _].
      split; [exists c; split; [exact Hc|exact Hv]|exists v; split; [exact Hin|exact Hv']]. }
  pose proof (uncontrolled_run qr nan neg_inf custom md p n df ids lv ar params ps val cs reduced Hred p' ar' params' ps' val'
    H Hclean Hval H' Hval' Hsame Hzero Hdisc) as Erun. fold md' in Erun.
  pose proof (uncontrolled_initial md p n df ids lv ar params ps val cs reduced Hred p' ar' params' ps' val'
    H Hval H' Hval' Hsame) as Einit.
  apply (same_runs qr nan _ md p n df ids lv ar params ps _ md' p' df lv ar' params' ps' debug H H'); try reflexivity; assumption.
Qed.
Print Assumptions C95_removed_controls.

(** ** An example *)

Lemma any_example md p n df ids lv ar (v : label -> R) : data_setting md p n df ids lv -> good_names md -> clean_anchoring md ->
  (2 <= n)%nat -> (1 <= n_mixtures_of md)%nat ->
  process_data 1%Z Z.eqb df (p_labels p) (p_update p) (p_anch p) true = Ok ar ->
  exists ar' ps, likelihood_setting md p n (real_frame df) ids lv ar' (map v (params_index_of p)) ps.
Proof.
  intros Hd Hg Hc Hn Hm Har. destruct (real_process md p n df ids lv ar Hd Har) as [ar' Har'].
  assert (Hl : length (map v (params_index_of p)) = length (params_index_of p)) by apply map_length.
  destruct Hd as (Hwf & Hp & Hd). pose proof (idx_NoDup md p Hwf Hg Hp) as Hnd.
  destruct (C09_parsing_succeeds R 0 1 ln md p n (length ids) (map v (params_index_of p)) Hwf Hnd Hp (proj1 Hd) Hl Hc Hn Hm) as [ps Hps].
  exists ar', ps. split; [apply real_setting; now split; [|split]|]. repeat (split; [assumption|]). exact Hps.
Qed.

(** The example with a constant factor and a second control z.  It is missing for
    individual 4 in the first two periods: x1 is missing as well. *)
Definition rich_model : model_dict :=
  mk_md (md_factors kept_model) (md_observed kept_model) (Some ["x1"; "z"]%string) (md_stagemap kept_model) (md_anchoring kept_model)
    (md_options kept_model).
Definition rich_p : processed := get_ok (process_model rich_model) small_p.
Lemma rich_accepted : process_model rich_model = Ok rich_p.
Proof. vm_compute. reflexivity. Qed.

Definition rich_df : frame Z :=
  mk_frame ("z"%string :: fr_columns ex_df) (fr_id_level ex_df) (fr_period_level ex_df)
    (map (fun r => mk_drow (dr_id r) (dr_period r) (fun c => if String.eqb c "z"
       then (if Z.eqb (dr_id r) 4 && Z.ltb (dr_period r) 30 then None else Some (dr_period r))
       else dr_cells r c)) (fr_rows ex_df)).

Definition rich_value (lb : label) : R :=
  match lb with
  | (CControls, _, _, c) => if String.eqb c "z" then 0 else 1
  | _ => kept_value lb
  end.

Lemma rich_data md p : data_setting md p 3 ex_df ex_ids ex_lv -> data_setting md p 3 rich_df ex_ids ex_lv.
Proof.
  intros (H1 & H2 & H3 & H4 & H5 & [H6 H6'] & H7). repeat (split; [assumption|]). split; [|split].
  - intros r Hr. unfold rich_df in Hr. cbn [fr_rows] in Hr. apply in_map_iff in Hr as (r0 & <- & Hr0). apply (H5 r0 Hr0).
  - split; [assumption|]. intros z. rewrite H6'. unfold rich_df. cbn [fr_rows]. split.
    + intros (r & Hr & HP). eexists. split; [apply in_map, Hr|exact HP].
    + intros (r & Hr & HP). apply in_map_iff in Hr as (r0 & <- & Hr0). exists r0. auto.
  - assumption.
Qed.

Lemma rich_setting : data_setting rich_model rich_p 3 ex_df ex_ids ex_lv.
Proof.
  destruct kept_setting as (H1 & _ & H3 & H4 & H5 & H6 & H7).
  split; [exact H1|]. split; [exact rich_accepted|]. split; [exact H3|].
  split; [exact H4|]. split; [exact H5|]. split; [exact H6|exact H7].
Qed.

Lemma rich_good_names : good_names rich_model.
Proof.
  destruct kept_good_names as (G1 & G2 & G3 & _ & _ & G6). split; [exact G1|].
  split; [exact G2|]. split; [exact G3|]. split; [|split; [|exact G6]].
  - repeat constructor; cbn; intuition discriminate.
  - cbn. intuition discriminate.
Qed.

Lemma rich_clean : clean_anchoring rich_model.
Proof. exact kept_clean. Qed.

Example C95_nonvacuous : exists ar ps val ar' ps' val',
  likelihood_setting rich_model rich_p 3 (real_frame rich_df) ex_ids ex_lv ar (map rich_value (params_index_of rich_p)) ps /\
  clean_anchoring rich_model /\
  parameter_values (params_index_of rich_p) (map rich_value (params_index_of rich_p)) val /\
  remove_controls (Many ["z"]%string) rich_model None = Ok (kept_model, None) /\
  likelihood_setting kept_model kept_p 3 (real_frame rich_df) ex_ids ex_lv ar' (map rich_value (params_index_of kept_p)) ps' /\
  parameter_values (params_index_of kept_p) (map rich_value (params_index_of kept_p)) val' /\
  (forall lb, In lb (params_index_of kept_p) -> val' lb = val lb) /\
  (forall t v c, In (t, v) (equations rich_model 3) -> In c (controls_of rich_model) -> named (Many ["z"]%string) c ->
     val (CControls, t, v, c) = 0) /\
  (forall id t c, In id ex_ids -> (t < 3)%nat -> In c (controls_of rich_model) -> named (Many ["z"]%string) c ->
     value 1 rich_model (real_frame rich_df) ex_lv id t c = None ->
     discarded 1 kept_model 3 (real_frame rich_df) ex_lv id t \/
     forall v, In (t, v) (equations rich_model 3) -> value 1 rich_model (real_frame rich_df) ex_lv id t v = None) /\
  value 1 rich_model (real_frame rich_df) ex_lv 4 0 "z"%string = None /\
  value 1 rich_model (real_frame rich_df) ex_lv 7 2 "z"%string = Some 30 /\
  val (CControls, 0%nat, "a"%string, "x1"%string) = 1 /\ length (params_index_of rich_p) = (length (params_index_of kept_p) + 13)%nat.
Proof.
  destruct (any_example rich_model rich_p 3 rich_df ex_ids ex_lv
    (get_ok (process_data 1%Z Z.eqb rich_df (p_labels rich_p) (p_update rich_p) (p_anch rich_p) true) ex_arrays) rich_value
    (rich_data _ _ rich_setting) rich_good_names rich_clean) as (ar & ps & H).
  { lia. } { apply Nat.leb_le. reflexivity. } { vm_compute. reflexivity. }
  destruct (any_example kept_model kept_p 3 rich_df ex_ids ex_lv
    (get_ok (process_data 1%Z Z.eqb rich_df (p_labels kept_p) (p_update kept_p) (p_anch kept_p) true) ex_arrays) rich_value
    (rich_data _ _ kept_setting) kept_good_names kept_clean) as (ar' & ps' & H').
  { lia. } { apply Nat.leb_le. reflexivity. } { vm_compute. reflexivity. }
  assert (Hnd : NoDup (params_index_of rich_p)) by (apply (idx_NoDup rich_model rich_p); [apply rich_setting|exact rich_good_names|exact rich_accepted]).
  assert (Hnd' : NoDup (params_index_of kept_p)) by (apply (idx_NoDup kept_model kept_p); [apply kept_setting|exact kept_good_names|exact kept_model_accepted]).
  exists ar, ps, (val_of 0 (params_index_of rich_p) (map rich_value (params_index_of rich_p))), ar', ps',
    (val_of 0 (params_index_of kept_p) (map rich_value (params_index_of kept_p))).
  assert (Hin : forall b lb, label_mem lb (params_index_of rich_p) = b -> b = true -> In lb (params_index_of rich_p)).
  { intros b lb E Eb. exact (proj1 (label_mem_In lb _) (eq_trans E Eb)). }
  split; [exact H|]. split; [exact rich_clean|]. split; [exact (values_ok _ rich_value Hnd)|]. split; [reflexivity|].
  split; [exact H'|]. split; [exact (values_ok _ rich_value Hnd')|]. split; [|split; [|split; [|split; [|split; [|split]]]]].
  - intros lb Hlb.
    refine (eq_trans (val_of_values (params_index_of kept_p) rich_value lb Hnd' Hlb) (eq_sym (val_of_values (params_index_of rich_p) rich_value lb Hnd _))).
    refine (proj1 (label_mem_In _ _) (proj1 (forallb_forall (fun lb => label_mem lb (params_index_of rich_p)) (params_index_of kept_p)) _ lb Hlb)).
    vm_compute. reflexivity.
  - intros t v c Hv Hc Hcs. destruct Hcs as [<-|[]].
    refine (eq_trans (val_of_values (params_index_of rich_p) rich_value _ Hnd _) eq_refl).
    refine (proj1 (label_mem_In _ _) (proj1 (forallb_forall (fun e => label_mem (CControls, fst e, snd e, "z"%string) (params_index_of rich_p))
      (equations rich_model 3)) _ (t, v) Hv)). vm_compute. reflexivity.
  - intros id t c Hid Ht _ [<-|[]] Hv0. rewrite real_value in Hv0.
    assert (Hv : value 1%Z rich_model rich_df ex_lv id t "z"%string = None)
      by (destruct (value 1%Z rich_model rich_df ex_lv id t "z"%string); [discriminate|reflexivity]). clear Hv0.
    assert (Hreal : forall md x, value 1%Z md rich_df ex_lv id t x = None -> value 1 md (real_frame rich_df) ex_lv id t x = None)
      by (intros md x E; rewrite real_value, E; reflexivity).
    assert (Hreal' : forall md x, value 1%Z md rich_df ex_lv id t x <> None -> value 1 md (real_frame rich_df) ex_lv id t x <> None)
      by (intros md x E; rewrite real_value; destruct (value 1%Z md rich_df ex_lv id t x); [discriminate|destruct (E eq_refl)]).
    assert (Ht' : t = 0%nat \/ t = 1%nat \/ t = 2%nat) by (clear -Ht; lia).
    clear H H' Hnd Hnd' Hin Ht.
    destruct Hid as [<-|[<-|[<-|[<-|[]]]]]; destruct Ht' as [->|[->| ->]]; try (vm_compute in Hv; discriminate Hv).
    + left. split; [exists "x1"%string; split; [vm_compute; tauto|]|exists "a"%string; split; [vm_compute; tauto|]].
      * apply Hreal. vm_compute. reflexivity.
      * apply Hreal'. vm_compute. discriminate.
    + right. intros v Hin'. apply Hreal. vm_compute in Hin'. repeat (destruct Hin' as [E|Hin']; [first [discriminate E|injection E as <-; vm_compute; reflexivity]|]).
      destruct Hin'.
  - rewrite real_value. reflexivity.
  - rewrite real_value. reflexivity.
  - refine (eq_trans (val_of_values (params_index_of rich_p) rich_value _ Hnd _) _); [|reflexivity].
    refine (Hin _ _ eq_refl _). vm_compute. reflexivity.
  - vm_compute. reflexivity.
Qed.

(** Why missing values of removed controls have to be excluded: individual 4 has a
    measurement of a in the first period, but not x1.  The filter of the full model never
    sees it, the one of the model without x1 does. *)
Definition bare_model : model_dict :=
  mk_md (md_factors kept_model) (md_observed kept_model) None (md_stagemap kept_model) (md_anchoring kept_model) (md_options kept_model).
Definition bare_p : processed := get_ok (process_model bare_model) small_p.
Example C95_missing_controls_matter : exists ar ar',
  remove_controls (One "x1"%string) kept_model None = Ok (bare_model, None) /\ process_model bare_model = Ok bare_p /\
  process_data 1%Z Z.eqb ex_df (p_labels kept_p) (p_update kept_p) (p_anch kept_p) true = Ok ar /\
  process_data 1%Z Z.eqb ex_df (p_labels bare_p) (p_update bare_p) (p_anch bare_p) true = Ok ar' /\
  nth_error (equations kept_model 3) 0 = Some (0%nat, "a"%string) /\ nth_error (equations bare_model 3) 0 = Some (0%nat, "a"%string) /\
  entry (ar_meas ar) 0 1 None /\ entry (ar_meas ar') 0 1 (Some 3%Z).
Proof.
  eexists _, _. split; [reflexivity|]. split; [vm_compute; reflexivity|].
  split; [vm_compute; reflexivity|]. split; [vm_compute; reflexivity|].
  split; [reflexivity|]. split; [reflexivity|]. split; eexists; (split; [reflexivity|reflexivity]).
Qed.
