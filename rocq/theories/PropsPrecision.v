(** In models with linear dynamics, more measurements make predictions more precise (C104). *)
Require Import Reals Qreals Lra Psatz String Arith ZArith Bool List Lia.
From Verif Require Import PyBase ListFacts ModelSpec ProcessModel CheckModel SpecModel ProcessModelFacts
  SpecParse SpecIndex IndexFacts SpecFacts ParamsIndex ParseParams ParseFacts AnchorFacts PropsParse ProcessData SpecData DataArrays DataFacts PropsData
  RSum Kalman SpecKalman KalmanFacts PropsKalman Clipping Likelihood SpecLikelihood ScheduleFacts LikelihoodRun PropsFiltered SpecModelDensity
  LikelihoodFacts LikelihoodLocal ExampleModels PropsSpec PropsLikelihood QRWitness QRSigns PropsNumerics Renormalization PropsRenormalization
  TransitionFunctions SpecTransition TransitionFacts PropsTransition SpecStateSpace ModelDensityFacts
  ModelInputs Runs Related PropsPrefix PropsControls PropsBayes ParamsVec SpecUnits KalmanOrder PropsUnits PropsFactorOrder SpecPrecision Precision.
Import ListNotations.
Open Scope R_scope.

(** ** Runs *)

Section Runs.
  Variable qr : qr_function.
  Hypothesis Hqr : correct_qr qr.
  Variable nan : R.
  Variable tfunc : dict (list R) -> vec -> vec.
  Variables (n_obs nm n no nc : nat) (kappa : R) (inp inp' : inputs) (i : nat).
  Hypothesis Hkappa : 0 <= kappa.
  Hypothesis Hpos : 0 < INR n + kappa.
  Hypothesis Hshape : no = O \/ nm = 1%nat.
  Hypothesis Hload : in_loadings inp' = in_loadings inp.
  Hypothesis Hsds : in_sd inp' = in_sd inp.
  Hypothesis Hcoeffs : in_coeffs inp' = in_coeffs inp.
  Hypothesis Hshocks : in_shock_sds inp' = in_shock_sds inp.
  Hypothesis Hscale : in_scaling inp' = in_scaling inp.

  Definition linear_event (e : event) : Prop :=
    match e with
    | Measure k _ | Anchor k _ => in_sd inp k <> 0 /\ (in_values inp k i <> None -> in_values inp' k i <> None)
    | Transition t =>
        (exists (a : mat) (b : vec), forall v f, (f < n)%nat ->
           tfunc (in_coeffs inp t) v f = rsum (n + no) (fun g => a f g * v g) + b f) /\
        forall f, (f < n)%nat -> in_scaling inp (t + 1)%nat f <> 0
    end.

  Definition smaller_beliefs (x x' : belief) : Prop :=
    forall m, (m < nm)%nat -> at_most n (cov n (be_chols x' i m)) (cov n (be_chols x i m)).

  Definition smaller_record (k : nat) (r r' : record) : Prop :=
    forall m, (m < nm)%nat ->
      (in_values inp k i <> None ->
       exists s s', re_residual_sds r i m = Some s /\ re_residual_sds r' i m = Some s' /\ Rabs (in_sd inp k) <= s' <= s) /\
      (in_values inp k i = None -> re_residual_sds r i m = None) /\
      (in_values inp' k i = None -> re_residual_sds r' i m = None).

  Lemma update_smaller an k t x x' : in_sd inp k <> 0 -> (in_values inp k i <> None -> in_values inp' k i <> None) -> smaller_beliefs x x' ->
    smaller_beliefs (fst (update_event qr nan nm n nc inp an k t x)) (fst (update_event qr nan nm n nc inp' an k t x')) /\
    smaller_record k (snd (update_event qr nan nm n nc inp an k t x)) (snd (update_event qr nan nm n nc inp' an k t x')).
  Proof.
    intros Hsd Hobs Hb. unfold update_event. cbn [fst snd]. split.
    - intros m Hm. cbn [be_chols]. destruct an; [now apply Hb|]. rewrite Hload, Hsds. specialize (Hb m Hm).
      pose proof (innovation_var_pos n (be_chols x i m) (in_loadings inp k) (in_sd inp k) Hsd) as P.
      pose proof (innovation_var_pos n (be_chols x' i m) (in_loadings inp k) (in_sd inp k) Hsd) as P'.
      assert (Miss : forall (y : belief) (z : inputs), in_values z k i = None ->
        up_chols (kalman_update qr nan nm n nc (be_states y) (be_chols y) (in_loadings inp k) (in_control_params z k)
          (in_sd inp k) (in_values z k) (in_controls z t) (be_logw y)) i = be_chols y i).
      { intros y z E. now destruct (update_missing_individual qr nan nm n nc (be_states y) (be_chols y) (in_loadings inp k) (in_control_params z k)
          (in_sd inp k) (in_values z k) (in_controls z t) (be_logw y) i E) as (_ & -> & _). }
      destruct (in_values inp k i) as [z|] eqn:Ez.
      + specialize (Hobs ltac:(discriminate)). destruct (in_values inp' k i) as [z'|] eqn:Ez'; [|congruence].
        eapply at_most_meq; [apply (up_cov_ok qr Hqr nan nm n nc _ _ _ _ _ _ _ _ i z' Ez' m); lra
          |apply (up_cov_ok qr Hqr nan nm n nc _ _ _ _ _ _ _ _ i z Ez m); lra|].
        now apply conditional_monotone.
      + rewrite (Miss x inp Ez). destruct (in_values inp' k i) as [z'|] eqn:Ez'.
        * eapply at_most_meq; [apply (up_cov_ok qr Hqr nan nm n nc _ _ _ _ _ _ _ _ i z' Ez' m); lra|intros ? ? ? ?; reflexivity|].
          eapply at_most_trans; [now apply conditional_shrinks|exact Hb].
        * now rewrite (Miss x' inp' Ez').
    - intros m Hm. cbn [re_residual_sds]. specialize (Hb m Hm). split; [|split].
      2:{ intros E. now apply (update_missing_individual qr nan nm n nc (be_states x) (be_chols x) (in_loadings inp k) (in_control_params inp k)
            (in_sd inp k) (in_values inp k) (in_controls inp t) (be_logw x) i E). }
      2:{ intros E. now apply (update_missing_individual qr nan nm n nc (be_states x') (be_chols x') (in_loadings inp' k) (in_control_params inp' k)
            (in_sd inp' k) (in_values inp' k) (in_controls inp' t) (be_logw x') i E). }
      intros Hv. specialize (Hobs Hv).
      destruct (in_values inp k i) as [z|] eqn:Ez; [|congruence]. destruct (in_values inp' k i) as [z'|] eqn:Ez'; [|congruence].
      eexists _, _.
      split; [apply (up_residual_sds_ok qr Hqr nan nm n nc _ _ _ _ _ _ _ _ i z Ez m)|].
      split; [apply (up_residual_sds_ok qr Hqr nan nm n nc _ _ _ _ _ _ _ _ i z' Ez' m)|]. rewrite Hload, Hsds.
      unfold innovation_var. pose proof (Hb (in_loadings inp k)) as Q.
      pose proof (quad_cov_nonneg n (be_chols x' i m) (in_loadings inp k)) as N. split.
      + rewrite <- (sqrt_Rsqr_abs (in_sd inp k)). apply sqrt_le_1_alt. unfold Rsqr. lra.
      + apply sqrt_le_1_alt. lra.
  Qed.

  Lemma predict_smaller t x x' y y' : linear_event (Transition t) -> smaller_beliefs x x' ->
    transition_event qr nan tfunc n_obs nm n no kappa inp t x = Ok y ->
    transition_event qr nan tfunc n_obs nm n no kappa inp' t x' = Ok y' -> smaller_beliefs y y'.
  Proof.
    intros [(a & b & Hab) Hs] Hb E E'. unfold transition_event in E, E'. rewrite Hcoeffs, Hshocks, Hscale in E'.
    destruct (C37_exact_for_affine qr Hqr n_obs nm n no kappa (be_states x) (be_chols x) (tfunc (in_coeffs inp t)) a b (in_shock_sds inp t)
      (fun r => in_scaling inp (t + r)%nat) (fun r => in_constants inp (t + r)%nat) (fun i f => to_number nan (in_observed inp t i f))
      Hpos Hshape Hab Hs) as (ps & pc & Ep & C).
    destruct (C37_exact_for_affine qr Hqr n_obs nm n no kappa (be_states x') (be_chols x') (tfunc (in_coeffs inp t)) a b (in_shock_sds inp t)
      (fun r => in_scaling inp (t + r)%nat) (fun r => in_constants inp' (t + r)%nat) (fun i f => to_number nan (in_observed inp' t i f))
      Hpos Hshape Hab Hs) as (ps' & pc' & Ep' & C').
    rewrite Ep in E. rewrite Ep' in E'. cbn [rbind fst snd] in E, E'. injection E as <-. injection E' as <-.
    intros m Hm. cbn [be_chols]. destruct (C i m Hm) as (_ & _ & D). destruct (C' i m Hm) as (_ & _ & D').
    exact (at_most_meq n _ _ _ _ (D' Hkappa) (D Hkappa) (image_monotone n _ _ _ _ (Hb m Hm))).
  Qed.

  Lemma run_smaller evs : forall x x' recs recs', Forall linear_event evs -> smaller_beliefs x x' ->
    run qr nan tfunc n_obs nm n no nc kappa inp evs x = Ok recs ->
    run qr nan tfunc n_obs nm n no nc kappa inp' evs x' = Ok recs' ->
    forall j k r r', nth_error (event_numbers evs) j = Some k -> nth_error recs j = Some r -> nth_error recs' j = Some r' ->
      smaller_record k r r'.
  Proof.
    induction evs as [|e evs IH]; intros x x' recs recs' HF Hb E E' j k r r' Hk Hr Hr'.
    - destruct j; discriminate.
    - inversion HF as [|? ? He HF']; subst. destruct e as [k0 t|k0 t|t]; cbn [run event_numbers] in E, E', Hk.
      + apply rbind_ok in E as (y & Ey & E); apply rbind_ok in E' as (y' & Ey' & E').
        injection E as <-. injection E' as <-. destruct He as [Hsd Hv].
        destruct (update_smaller false k0 t x x' Hsd Hv Hb) as [A B]. destruct j as [|j]; cbn [nth_error] in *.
        * injection Hk as <-. injection Hr as <-. injection Hr' as <-. exact B.
        * eapply IH; eauto.
      + apply rbind_ok in E as (y & Ey & E); apply rbind_ok in E' as (y' & Ey' & E').
        injection E as <-. injection E' as <-. destruct He as [Hsd Hv].
        destruct (update_smaller true k0 t x x' Hsd Hv Hb) as [A B]. destruct j as [|j]; cbn [nth_error] in *.
        * injection Hk as <-. injection Hr as <-. injection Hr' as <-. exact B.
        * eapply IH; eauto.
      + apply rbind_ok in E as (y & Ey & E); apply rbind_ok in E' as (y' & Ey' & E').
        exact (IH y y' recs recs' HF' (predict_smaller t x x' y y' He Hb Ey Ey') E E' j k r r' Hk Hr Hr').
  Qed.
End Runs.

(** ** Models *)

Lemma mask_set_In {A} (x : A) mask : forall vals row, In x (mask_set mask vals row) -> In x vals \/ In x row.
Proof.
  induction mask as [|[] mask IH]; intros vals [|y row]; cbn [mask_set]; auto.
  - destruct vals as [|v vals]; auto. intros [<-|Hx]; [left; now left|]. destruct (IH vals row Hx) as [K|K]; [left|right]; now right.
  - intros [<-|Hx]; [right; now left|]. destruct (IH vals row Hx) as [K|K]; [now left|right; now right].
Qed.

Section Model.
  Variable qr : qr_function.
  Hypothesis Hqr : correct_qr qr.
  Variables (nan neg_inf : R) (custom : string -> dict R -> dict R -> list R -> result R).
  Hypothesis Hcustom : total_custom custom.
  Variables (md : model_dict) (p : processed) (n : nat) (ids : list Z) (df : frame R) (lv : list Z) (ar : arrays R)
    (params : list R) (ps : parsed R) (val : label -> R) (df' : frame R) (lv' : list Z) (ar' : arrays R) (ps' : parsed R).
  Hypothesis H : likelihood_setting md p n df ids lv ar params ps.
  Hypothesis H' : likelihood_setting md p n df' ids lv' ar' params ps'.
  Hypothesis Hval : parameter_values (params_index_of p) params val.
  Hypothesis Hlin : linear_dynamics md.
  Hypothesis Hclean : clean_anchoring md.
  Hypothesis Hnoisy : noisy_equations md n val.
  Hypothesis Hkappa : 0 <= Q2R (o_sigma_points_scale (p_options p)).
  Hypothesis Hmore : more_observed md n ids df lv df' lv'.

  Let Hwf : wf_dicts md. Proof. apply H. Qed.
  Let Hp : process_model md = Ok p. Proof. apply H. Qed.
  Let Hn : has_n_periods md n. Proof. apply H. Qed.
  Let tfunc := model_tfunc nan neg_inf custom md (p_labels p).
  Let inp := inputs_of ps ar.
  Let inp' := inputs_of ps' ar'.

  Lemma precision_parsed : ps' = ps.
  Proof.
    assert (E : parse_for 0 1 ln p params (length ids) = Ok ps) by apply H.
    assert (E' : parse_for 0 1 ln p params (length ids) = Ok ps') by apply H'. congruence.
  Qed.

  Lemma precision_scaling t f : (t < n)%nat -> (f < length (latent_of md))%nat -> in_scaling inp t f <> 0.
  Proof.
    intros Ht Hf. unfold inp. rewrite (scaling_form _ _ _ _ _ _ _ _ _ _ H Hval t Hclean Ht). unfold arr1.
    set (l := _ ++ _). assert (Hl : (f < length l)%nat).
    { unfold l. rewrite app_length, mask_set_length, map_length by now rewrite !map_length. lia. }
    pose proof (nth_In l 0 Hl) as Hin. unfold l in Hin. apply in_app_or in Hin as [Hin|Hin].
    - apply mask_set_In in Hin as [Hin|Hin].
      + apply in_map_iff in Hin as ([g o] & E & Hin). fold l in E. rewrite <- E. now apply Hnoisy.
      + apply in_map_iff in Hin as (g & E & Hin). fold l in E. rewrite <- E. lra.
    - apply repeat_spec in Hin. fold l in Hin. rewrite Hin. lra.
  Qed.

  Lemma values_used (df0 : frame R) lv0 ar0 ps0 i id k t v : likelihood_setting md p n df0 ids lv0 ar0 params ps0 ->
    nth_error ids i = Some id -> nth_error (equations md n) k = Some (t, v) ->
    in_values (inputs_of ps0 ar0) k i <> None <-> counts md n df0 lv0 id t v.
  Proof.
    intros H0 Hi Hk. assert (Ht : (t < n)%nat) by (apply (equations_period md n t v); eapply nth_error_In, Hk).
    rewrite (values_form _ _ _ _ _ _ _ _ _ H0 (given_value md n df0 lv0) (fun id t x _ _ => given_handed md n df0 lv0 id t x) k t v Hk).
    unfold oarr1. rewrite (nth_of_nth_error _ _ _ _ (map_nth_error _ _ _ Hi)).
    destruct (given_handed md n df0 lv0 id t v) as [A B]. unfold counts. split.
    - intros E. assert (D : ~ discarded 1 md n df0 lv0 id t) by (intros F; now apply E, A). split; [|exact D]. now rewrite <- (B D).
    - intros [E D]. now rewrite (B D).
  Qed.

  Lemma linear_events i : (i < length ids)%nat ->
    Forall (linear_event tfunc (length (latent_of md)) (length (observed_of md)) inp inp' i) (code_events 0 (purposes (p_update p))).
  Proof.
    intros Hi. rewrite Forall_forall. intros e He.
    destruct (nth_error ids i) as [id|] eqn:Ei; [|apply nth_error_None in Ei; lia].
    set (P := linear_event tfunc (length (latent_of md)) (length (observed_of md)) inp inp' i).
    assert (F : Forall2 (fun e e' => e = e' /\ P e)
      (code_events 0 (purposes (p_update p))) (code_events 0 (purposes (p_update p)))).
    { rewrite (purposes_equations md p n Hwf Hp Hn). apply code_events_Forall.
      - intros k t bb Hk. rewrite nth_error_map in Hk.
        destruct (nth_error (equations md n) k) as [[s v]|] eqn:Ek; [|discriminate]. injection Hk as <- <-.
        assert (Hin : In (s, v) (equations md n)) by (eapply nth_error_In, Ek).
        rewrite Nat.add_0_l. split; [reflexivity|].
        assert (G : in_sd inp k <> 0 /\ (in_values inp k i <> None -> in_values inp' k i <> None)).
        { split.
          - unfold inp. rewrite (sd_form _ _ _ _ _ _ _ _ _ _ H Hval k s v Ek). now apply Hnoisy.
          - unfold inp, inp'. rewrite (values_used _ _ _ _ i id k s v H Ei Ek), (values_used _ _ _ _ i id k s v H' Ei Ek).
            apply Hmore; [eapply nth_error_In, Ei|exact Hin]. }
        unfold P, ev. cbn [fst snd]. destruct (is_anchoring_equation md v); exact G.
      - intros k t bb bb' _ Hk. rewrite nth_error_map in Hk.
        destruct (nth_error (equations md n) (S k)) as [[s v]|] eqn:Ek; [|discriminate]. injection Hk as Es _. cbn [fst] in Es. subst s.
        split; [reflexivity|].
        assert (Ht : (S t < n)%nat) by (apply (equations_period md n _ v); eapply nth_error_In, Ek).
        assert (Ht' : (t + 1 < n)%nat) by lia. split.
        + eexists _, _. exact (affine_form md p n df ids lv ar params ps val H Hval Hlin nan neg_inf custom Hcustom t Ht').
        + intros f Hf. now apply precision_scaling. }
    exact (Forall2_left P _ _ F e He).
  Qed.

  Lemma precision_likelihood :
    match log_likelihood qr nan tfunc p ar true params, log_likelihood qr nan tfunc p ar' true params with
    | Ok out, Ok out' => exists d d', out_debug out = Some d /\ out_debug out' = Some d' /\ more_precise md n ids df lv df' lv' val d d'
    | Err e, Err e' => e = e'
    | _, _ => False
    end.
  Proof.
    pose proof precision_parsed as Eps.
    assert (Hlu : length (p_update p) = length (equations md n)).
    { rewrite (equations_update md p n Hwf Hp Hn). now rewrite map_length. }
    destruct (shapes_fit (length ids) (n_mixtures (p_dims p)) (n_observed (p_dims p))) eqn:Hfit.
    - destruct (likelihood_events qr nan tfunc md p n df ids lv ar params ps true H Hfit)
        as (recs & out & Er & Hl & -> & Hr).
      destruct (likelihood_events qr nan tfunc md p n df' ids lv' ar' params ps' true H' Hfit)
        as (recs' & out' & Er' & Hl' & -> & Hr').
      destruct Hr as (_ & _ & _ & D). destruct Hr' as (_ & _ & _ & D').
      destruct (D eq_refl) as (d & Ed & _ & _ & K). destruct (D' eq_refl) as (d' & Ed' & _ & _ & K').
      exists d, d'. split; [exact Ed|]. split; [exact Ed'|].
      intros i id k t v m Hid Hk Hm.
      assert (Hi : (i < length ids)%nat) by (apply nth_error_Some; congruence).
      assert (Hkl : (k < length (equations md n))%nat) by (apply nth_error_Some; congruence).
      destruct (nth_error recs k) as [r|] eqn:Ek; [|apply nth_error_None in Ek; lia].
      destruct (nth_error recs' k) as [r'|] eqn:Ek'; [|apply nth_error_None in Ek'; lia].
      destruct (K k r Ek) as (_ & _ & -> & _). destruct (K' k r' Ek') as (_ & _ & -> & _).
      unfold run_model in Er, Er'. destruct (p_dims_eq md p Hp) as (Dl & Do & Dc & Dm & _).
      rewrite Dl, Do, Dc, Dm in *.
      assert (S0 : smaller_record (n_mixtures_of md) inp inp' i k r r').
      { refine (run_smaller qr Hqr nan tfunc (length ids) _ _ _ _ _ inp inp' i Hkappa _ _ _ _ _ _ _ _ _ _ _ _
          (linear_events i Hi) _ Er Er' k k r r' _ Ek Ek'); try (unfold inp', inp; now rewrite Eps).
        - assert (0 < INR (length (latent_of md))).
          { apply lt_0_INR. destruct Hn as [(f & fs & Hin & _) _]. unfold latent_of. rewrite map_length.
            destruct (md_factors md); [destruct Hin|cbn; lia]. }
          lra.
        - apply shapes_fit_spec in Hfit as [F|F]; [lia|exact F].
        - rewrite Eps. intros ? ?. apply at_most_refl.
        - rewrite code_numbers. assert (Hk' : (k < length (purposes (p_update p)))%nat).
          { unfold purposes. rewrite map_length. lia. }
          exact (nth_error_range (length (purposes (p_update p))) k Hk'). }
      destruct (S0 m Hm) as (A & B & C). unfold inp in A.
      pose proof (values_used _ _ _ _ i id k t v H Hid Hk) as U. pose proof (values_used _ _ _ _ i id k t v H' Hid Hk) as U'.
      rewrite (sd_form _ _ _ _ _ _ _ _ _ _ H Hval k t v Hk) in A. split; [|split].
      + intros Hc. now apply A, U.
      + intros Hc. apply B. unfold inp. destruct (in_values (inputs_of ps ar) k i); [|reflexivity]. destruct Hc. apply U. discriminate.
      + intros Hc. apply C. unfold inp'. destruct (in_values (inputs_of ps' ar') k i); [|reflexivity]. destruct Hc. apply U'. discriminate.
    - destruct (p_update p) as [|r0 u0] eqn:Eu.
      + unfold log_likelihood. destruct (ar_shapes md p n df ids lv ar params ps H) as (_ & _ & ->).
        destruct (ar_shapes md p n df' ids lv' ar' params ps' H') as (_ & _ & ->).
        assert (Hps : parse_for 0 1 ln p params (length ids) = Ok ps) by apply H. rewrite Hps. cbn [rbind].
        rewrite (loop_args_ok md p n df ids lv ar params ps H).
        pose proof (loop_args_ok md p n df' ids lv' ar' params ps' H') as El'. rewrite Eps in El'. rewrite El', Eu.
        cbn [length seq map rbind scan snd out_debug].
        eexists _, _. split; [reflexivity|]. split; [reflexivity|].
        assert (E0 : equations md n = []) by (cbn [length] in Hlu; now destruct (equations md n)).
        intros i id k t v m _ Hk. rewrite E0 in Hk. destruct k; discriminate.
      + rewrite (likelihood_misfits qr nan tfunc md p n df ids lv ar params ps true H Hfit) by (rewrite Eu; discriminate).
        rewrite (likelihood_misfits qr nan tfunc md p n df' ids lv' ar' params ps' true H' Hfit) by (rewrite Eu; discriminate).
        reflexivity.
  Qed.
End Model.

(** * C104 *)

(** Models with linear production functions: using more measurements of the same
    individuals, with whatever values, never makes the reported standard deviations of
    prediction errors larger, and they are never smaller than the standard deviation of
    the measurement itself. *)
Theorem C104_more_measurements :
  forall qr nan neg_inf custom md p n ids df lv ar params ps val df' lv' ar' ps',
    correct_qr qr -> total_custom custom ->
    likelihood_setting md p n df ids lv ar params ps -> likelihood_setting md p n df' ids lv' ar' params ps' ->
    parameter_values (params_index_of p) params val ->
    linear_dynamics md -> clean_anchoring md -> noisy_equations md n val ->
    0 <= Q2R (o_sigma_points_scale (p_options p)) ->
    more_observed md n ids df lv df' lv' ->
    let tfunc := model_tfunc nan neg_inf custom md (p_labels p) in
    match log_likelihood qr nan tfunc p ar true params, log_likelihood qr nan tfunc p ar' true params with
    | Ok out, Ok out' => exists d d', out_debug out = Some d /\ out_debug out' = Some d' /\ more_precise md n ids df lv df' lv' val d d'
    | Err e, Err e' => e = e'
    | _, _ => False
    end.
Proof.
  intros qr nan neg_inf custom md p n ids df lv ar params ps val df' lv' ar' ps' Hqr Hcustom H H' Hval Hlin Hclean Hnoisy Hkappa Hmore tfunc.
  exact (precision_likelihood qr Hqr nan neg_inf custom Hcustom md p n ids df lv ar params ps val df' lv' ar' ps'
    H H' Hval Hlin Hclean Hnoisy Hkappa Hmore).
Qed.
Print Assumptions C104_more_measurements.

(** The standard deviations depend only on which measurements are used: the values of the
    measurements, of the controls and of the observed factors are irrelevant. *)
Corollary C104_values_irrelevant :
  forall qr nan neg_inf custom md p n ids df lv ar params ps val df' lv' ar' ps' out out' d d',
    correct_qr qr -> total_custom custom ->
    likelihood_setting md p n df ids lv ar params ps -> likelihood_setting md p n df' ids lv' ar' params ps' ->
    parameter_values (params_index_of p) params val ->
    linear_dynamics md -> clean_anchoring md -> noisy_equations md n val ->
    0 <= Q2R (o_sigma_points_scale (p_options p)) ->
    more_observed md n ids df lv df' lv' -> more_observed md n ids df' lv' df lv ->
    let tfunc := model_tfunc nan neg_inf custom md (p_labels p) in
    log_likelihood qr nan tfunc p ar true params = Ok out -> log_likelihood qr nan tfunc p ar' true params = Ok out' ->
    out_debug out = Some d -> out_debug out' = Some d' ->
    forall i k m, (i < length ids)%nat -> (k < length (equations md n))%nat -> (m < n_mixtures_of md)%nat ->
      do_residual_sds d k i m = do_residual_sds d' k i m.
Proof.
  intros qr nan neg_inf custom md p n ids df lv ar params ps val df' lv' ar' ps' out out' d d'
    Hqr Hcustom H H' Hval Hlin Hclean Hnoisy Hkappa M M' tfunc E E' Ed Ed' i k m Hi Hk Hm.
  pose proof (C104_more_measurements qr nan neg_inf custom md p n ids df lv ar params ps val df' lv' ar' ps'
    Hqr Hcustom H H' Hval Hlin Hclean Hnoisy Hkappa M) as T. cbv zeta in T. fold tfunc in T. rewrite E, E' in T.
  pose proof (C104_more_measurements qr nan neg_inf custom md p n ids df' lv' ar' params ps' val df lv ar ps
    Hqr Hcustom H' H Hval Hlin Hclean Hnoisy Hkappa M') as T'. cbv zeta in T'. fold tfunc in T'. rewrite E, E' in T'.
  destruct T as (d0 & d0' & F & F' & T). destruct T' as (d1' & d1 & F1' & F1 & T').
  assert (d0 = d) by congruence. assert (d0' = d') by congruence. assert (d1 = d) by congruence. assert (d1' = d') by congruence. subst.
  destruct (nth_error ids i) as [id|] eqn:Ei; [|apply nth_error_None in Ei; lia].
  destruct (nth_error (equations md n) k) as [[t v]|] eqn:Ek; [|apply nth_error_None in Ek; lia].
  destruct (T i id k t v m Ei Ek Hm) as (A & B & C). destruct (T' i id k t v m Ei Ek Hm) as (A' & B' & C').
  assert (Iff : counts md n df lv id t v <-> counts md n df' lv' id t v)
    by (split; [apply M|apply M']; eauto using nth_error_In).
  destruct (counts_dec md n df lv id t v) as [Hc|Hc].
  - destruct (A Hc) as (s & s' & Es & Es' & L). destruct (A' (proj1 Iff Hc)) as (u & u' & Eu & Eu' & L').
    rewrite Es, Es'. rewrite Es' in Eu. rewrite Es in Eu'.
    assert (s' = u) by congruence. assert (s = u') by congruence. f_equal. lra.
  - rewrite (B Hc), (C (fun F0 => Hc (proj2 Iff F0))). reflexivity.
Qed.
Print Assumptions C104_values_irrelevant.

(** Filling in missing values of measurements while the controls are available: a sufficient condition. *)
Lemma filled_in md n ids (df : frame R) lv df' lv' :
  (forall id t v, In id ids -> In (t, v) (equations md n) -> value 1 md df lv id t v <> None -> value 1 md df' lv' id t v <> None) ->
  (forall id t c, In id ids -> (t < n)%nat -> In c (controls_of md) -> value 1 md df lv id t c <> None -> value 1 md df' lv' id t c <> None) ->
  more_observed md n ids df lv df' lv'.
Proof.
  intros A B id t v Hid Hin [Hv Hd]. split; [now apply A|]. intros [(c & Hc & Ec) _]. apply Hd. split; [|now exists v].
  exists c. split; [exact Hc|].
  destruct (value 1 md df lv id t c) eqn:E; [|reflexivity]. destruct (B id t c Hid) as []; try assumption; [|congruence].
  now apply (equations_period md n t v).
Qed.

(** ** Example *)

(** The example data with one value missing and all others changed. *)
Definition sparse_df : frame Z :=
  mk_frame (fr_columns ex_df) (fr_id_level ex_df) (fr_period_level ex_df)
    (map (fun r => mk_drow (dr_id r) (dr_period r) (fun c =>
       if Z.eqb (dr_id r) 7 && Z.eqb (dr_period r) 20 && String.eqb c "c" then None else option_map (fun z => (2 * z + 1)%Z) (dr_cells r c)))
      (fr_rows ex_df)).

Lemma sparse_setting : data_setting free_model free_p 3 sparse_df ex_ids ex_lv.
Proof.
  destruct free_setting as (H1 & H2 & H3 & H4 & H5 & H6 & H7).
  split; [exact H1|]. split; [exact H2|]. split; [exact H3|]. split; [exact H4|]. split; [|split; [|exact H7]].
  - intros r Hr. apply in_map_iff in Hr as (r0 & <- & Hr). exact (H5 r0 Hr).
  - destruct H6 as [S6 I6]. split; [exact S6|]. intros z. rewrite I6. split.
    + intros (r & Hr & E). eexists. split; [apply in_map, Hr|exact E].
    + intros (r & Hr & E). apply in_map_iff in Hr as (r0 & <- & Hr). exists r0. split; [exact Hr|exact E].
Qed.

Lemma sparse_raw id t y : raw_cells sparse_df ex_lv id t y <> None -> raw_cells ex_df ex_lv id t y <> None.
Proof.
  unfold raw_cells. destruct (nth_error ex_lv t) as [z|]; [|auto]. unfold sparse_df. cbn [fr_rows].
  induction (fr_rows ex_df) as [|r rs IH]; [auto|]. cbn [map find dr_id dr_period].
  destruct (Z.eqb (dr_id r) id && Z.eqb (dr_period r) z); [|exact IH]. cbn [dr_cells].
  destruct (_ && _); [congruence|]. now destruct (dr_cells r y).
Qed.

Lemma sparse_value id t y : value 1 free_model (real_frame sparse_df) ex_lv id t y <> None ->
  value 1 free_model (real_frame ex_df) ex_lv id t y <> None.
Proof.
  rewrite !real_value. intros E.
  assert (E0 : value 1%Z free_model sparse_df ex_lv id t y <> None) by (destruct (value 1%Z free_model sparse_df ex_lv id t y); [discriminate|now destruct E]).
  assert (G : value 1%Z free_model ex_df ex_lv id t y <> None).
  { unfold value, data_value in *. destruct (find _ (outcomes_of free_model)); [now apply sparse_raw|].
    destruct (String.eqb y "constant"); [discriminate|now apply sparse_raw]. }
  destruct (value 1%Z free_model ex_df ex_lv id t y); [discriminate|congruence].
Qed.

Lemma free_noisy : noisy_equations free_model 3 (val_of 0 (params_index_of free_p) (map order_value (params_index_of free_p))).
Proof.
  assert (Hnd : NoDup (params_index_of free_p)) by (apply (idx_NoDup free_model free_p); [apply free_setting|exact free_good_names|exact free_accepted]).
  split.
  - intros t v Hv. rewrite (listed_value _ order_value _ Hnd).
    assert (F := proj1 (forallb_forall (fun e => label_mem (CMeasSds, fst e, snd e, "-"%string) (params_index_of free_p)) (equations free_model 3)) ltac:(vm_compute; reflexivity) (t, v) Hv).
    cbn [fst snd] in F. rewrite F. cbn. lra.
  - intros t f o Ht Ho. rewrite (listed_value _ order_value _ Hnd).
    assert (F := proj1 (forallb_forall (fun tfo : nat * (string * string) => label_mem (CLoadings, fst tfo, (snd (snd tfo) ++ "_" ++ fst (snd tfo))%string, fst (snd tfo)) (params_index_of free_p))
      (list_prod (seq 0 3) (outcomes_of free_model))) ltac:(vm_compute; reflexivity) (t, (f, o)) ltac:(apply in_prod; [apply in_seq; clear -Ht; lia|exact Ho])).
    cbn [fst snd] in F. rewrite F. cbn. lra.
Qed.

Example C104_nonvacuous : exists ar ps val ar' ps',
  total_custom plain_custom /\
  likelihood_setting free_model free_p 3 (real_frame sparse_df) ex_ids ex_lv ar (map order_value (params_index_of free_p)) ps /\
  likelihood_setting free_model free_p 3 (real_frame ex_df) ex_ids ex_lv ar' (map order_value (params_index_of free_p)) ps' /\
  parameter_values (params_index_of free_p) (map order_value (params_index_of free_p)) val /\
  linear_dynamics free_model /\ clean_anchoring free_model /\ noisy_equations free_model 3 val /\
  0 <= Q2R (o_sigma_points_scale (p_options free_p)) /\
  more_observed free_model 3 ex_ids (real_frame sparse_df) ex_lv (real_frame ex_df) ex_lv /\
  (counts free_model 3 (real_frame ex_df) ex_lv 7 1 "c" /\ ~ counts free_model 3 (real_frame sparse_df) ex_lv 7 1 "c") /\
  counts free_model 3 (real_frame sparse_df) ex_lv 5 1 "c" /\
  shapes_fit (length ex_ids) (n_mixtures (p_dims free_p)) (n_observed (p_dims free_p)) = true.
Proof.
  assert (Hnd : NoDup (params_index_of free_p)) by (apply (idx_NoDup free_model free_p); [apply free_setting|exact free_good_names|exact free_accepted]).
  destruct (any_example free_model free_p 3 sparse_df ex_ids ex_lv
    (get_ok (process_data 1%Z Z.eqb sparse_df (p_labels free_p) (p_update free_p) (p_anch free_p) true) ex_arrays) order_value
    sparse_setting free_good_names free_clean) as (ar & ps & H).
  { lia. } { apply Nat.leb_le. reflexivity. } { vm_compute. reflexivity. }
  destruct (any_example free_model free_p 3 ex_df ex_ids ex_lv
    (get_ok (process_data 1%Z Z.eqb ex_df (p_labels free_p) (p_update free_p) (p_anch free_p) true) ex_arrays) order_value
    free_setting free_good_names free_clean) as (ar' & ps' & H').
  { lia. } { apply Nat.leb_le. reflexivity. } { vm_compute. reflexivity. }
  assert (Hctl : forall df id t, (exists x, value 1%Z free_model df ex_lv id t "x1"%string = Some x) ->
    ~ discarded 1 free_model 3 (real_frame df) ex_lv id t).
  { intros df id t [x Hx] [(c & Hc & Ec) _]. assert (Hc' : In c ["x1"%string]) by exact Hc. destruct Hc' as [<-|[]].
    rewrite real_value, Hx in Ec. discriminate. }
  exists ar, ps, (val_of 0 (params_index_of free_p) (map order_value (params_index_of free_p))), ar', ps'.
  split; [intros f params env states; unfold plain_custom; destruct (dget params "q"), (dget env "inc"); eauto|].
  split; [exact H|]. split; [exact H'|]. split; [exact (values_ok _ order_value Hnd)|].
  split; [exact free_affine|]. split; [exact free_clean|]. split; [exact free_noisy|].
  split; [change (o_sigma_points_scale (p_options free_p)) with 2%Q; unfold Q2R; cbn; lra|].
  split; [apply filled_in; intros; now apply sparse_value|].
  split; [split|split].
  - split; [rewrite real_value; vm_compute; discriminate|]. apply Hctl. eexists. vm_compute. reflexivity.
  - intros [Hv _]. apply Hv. rewrite real_value. reflexivity.
  - split; [rewrite real_value; vm_compute; discriminate|]. apply Hctl. eexists. vm_compute. reflexivity.
  - vm_compute. reflexivity.
Qed.
