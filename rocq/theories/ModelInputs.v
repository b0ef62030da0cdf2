(** What the filter is given, as functions of the values of the parameters by label and
    of the data by individual, period and variable. *)
Require Import Reals Qreals String Arith ZArith Bool List Lia FunctionalExtensionality.
From Verif Require Import PyBase ListFacts ModelSpec ProcessModel CheckModel SpecModel ProcessModelFacts
  SpecParse SpecIndex IndexFacts SpecFacts ParamsIndex ParseParams ParseFacts AnchorFacts PropsParse ProcessData SpecData PropsData
  RSum Kalman Likelihood SpecLikelihood ScheduleFacts LikelihoodRun PropsFiltered SpecModelDensity.
Import ListNotations.
Open Scope R_scope.

Lemma val_of_absent idx (v : list R) lb : ~ In lb idx -> val_of 0 idx v lb = 0.
Proof.
  revert v. induction idx as [|a idx IH]; intros [|x l] Hlb; try reflexivity.
  cbn [val_of]. destruct (label_eq_dec lb a) as [->|_]; [destruct Hlb; now left|].
  apply IH. intros F. apply Hlb. now right.
Qed.

Lemma parameter_values_fun idx params val : NoDup idx -> length params = length idx ->
  parameter_values idx params val -> val_of 0 idx params = val.
Proof.
  intros Hnd Hl [A B]. apply functional_extensionality. intros lb.
  destruct (in_dec label_eq_dec lb idx) as [I|N].
  - pose proof (labelled_map idx (val_of 0 idx params) lb I) as L.
    rewrite <- (val_of_map 0 idx params Hnd Hl) in L. exact (labelled_fun _ _ _ _ _ Hnd L (A lb I)).
  - now rewrite (val_of_absent _ _ _ N), (B lb N).
Qed.

Lemma nth_map_seq {A} (f : nat -> A) n t d : (t < n)%nat -> nth t (map f (seq 0 n)) d = f t.
Proof.
  intros H. rewrite (nth_of_nth_error _ t (f t) d); [reflexivity|].
  apply map_nth_error, (nth_error_range n t H).
Qed.

Section Forms.
  Variables (md : model_dict) (p : processed) (n : nat) (df : frame R) (ids lv : list Z) (ar : arrays R)
    (params : list R) (ps : parsed R) (val : label -> R).
  Hypothesis H : likelihood_setting md p n df ids lv ar params ps.
  Hypothesis Hval : parameter_values (params_index_of p) params val.

  Let Hwf : wf_dicts md. Proof. apply H. Qed.
  Let Hp : process_model md = Ok p. Proof. apply H. Qed.
  Let Hn : has_n_periods md n. Proof. apply H. Qed.
  Let Hg : good_names md. Proof. apply H. Qed.
  Let Hu : NoDup (params_index_of p). Proof. exact (idx_NoDup md p Hwf Hg Hp). Qed.
  Let Hlen : length params = length (params_index_of p). Proof. apply H. Qed.
  Let Hps : parse_for 0 1 ln p params (length ids) = Ok ps. Proof. apply H. Qed.
  Let inp := inputs_of ps ar.
  Let Hv : val_of 0 (params_index_of p) params = val.
  Proof. exact (parameter_values_fun _ _ _ Hu Hlen Hval). Qed.

  Lemma equation_row k t v : nth_error (equations md n) k = Some (t, v) ->
    exists r, nth_error (p_update p) k = Some r /\ u_period r = t /\ u_var r = v /\ In r (p_update p).
  Proof.
    intros Hk. destruct (row_of_equation md p n Hwf Hp Hn k t v Hk) as (r & A & B & C & D & _). eauto.
  Qed.

  Lemma loading_form k t v : nth_error (equations md n) k = Some (t, v) ->
    in_loadings inp k = arr1 (map (fun f => val (CLoadings, t, v, f)) (latent_of md)).
  Proof.
    intros Hk. destruct (equation_row k t v Hk) as (r & Hr & Et & Ev & Hin).
    unfold inp, inputs_of, arr2. cbn [in_loadings]. f_equal.
    destruct (parse_for_inv R 0 1 ln md p n (length ids) params Hwf Hu Hp Hn Hlen ps Hps) as (s & c & _ & _ & ->).
    unfold the_parsed. cbn [ps_loadings]. rewrite Hv.
    rewrite (nth_of_nth_error _ k _ [] (map_nth_error _ _ _ Hr)). rewrite Et, Ev. apply map_ext_in. intros f Hf.
    destruct (u_flag r f) eqn:E; [reflexivity|]. symmetry. apply (proj2 Hval). intros F.
    apply (In_params_index md p _ Hwf Hp) in F. inversion F as [|? ? ? Hi _| | | | | |]; subst.
    apply (p_update_flag md p r f Hwf Hp Hin) in Hi. congruence.
  Qed.

  Lemma control_form k t v : nth_error (equations md n) k = Some (t, v) ->
    in_control_params inp k = arr1 (map (fun c => val (CControls, t, v, c)) ("constant"%string :: controls_of md)).
  Proof.
    intros Hk. destruct (equation_row k t v Hk) as (r & Hr & Et & Ev & Hin).
    unfold inp, inputs_of, arr2. cbn [in_control_params]. f_equal.
    destruct (parse_for_inv R 0 1 ln md p n (length ids) params Hwf Hu Hp Hn Hlen ps Hps) as (s & c & _ & _ & ->).
    unfold the_parsed. cbn [ps_controls]. rewrite Hv.
    rewrite (nth_of_nth_error _ k _ [] (map_nth_error _ _ _ Hr)). now rewrite Et, Ev.
  Qed.

  Lemma sd_form k t v : nth_error (equations md n) k = Some (t, v) ->
    in_sd inp k = val (CMeasSds, t, v, "-"%string).
  Proof.
    intros Hk. destruct (equation_row k t v Hk) as (r & Hr & Et & Ev & Hin).
    unfold inp, inputs_of, arr1. cbn [in_sd].
    destruct (parse_for_inv R 0 1 ln md p n (length ids) params Hwf Hu Hp Hn Hlen ps Hps) as (s & c & _ & _ & ->).
    unfold the_parsed. cbn [ps_meas_sds]. rewrite Hv.
    rewrite (nth_of_nth_error _ k _ 0 (map_nth_error _ _ _ Hr)). now rewrite Et, Ev.
  Qed.

  Lemma shock_form t : (t + 1 < n)%nat ->
    in_shock_sds inp t = arr1 (map (fun f => val (CShockSds, t, f, "-"%string)) (latent_of md)).
  Proof.
    intros Ht. unfold inp, inputs_of, arr2. cbn [in_shock_sds]. f_equal.
    destruct (parse_for_inv R 0 1 ln md p n (length ids) params Hwf Hu Hp Hn Hlen ps Hps) as (s & c & _ & _ & ->).
    unfold the_parsed. cbn [ps_shock_sds]. rewrite Hv.
    apply (nth_map_seq (fun t => map (fun f => val (CShockSds, t, f, "-"%string)) (latent_of md)) (n - 1) t []). lia.
  Qed.

  Lemma coeffs_form t : (t + 1 < n)%nat ->
    in_coeffs inp t = map (fun ffs => (fst ffs, map (fun name => val (CTransition, t, fst ffs, name))
        (transition_parameters (latent_of md ++ observed_of md) (fs_transition (snd ffs))))) (md_factors md).
  Proof.
    intros Ht. unfold inp, inputs_of. cbn [in_coeffs].
    destruct (parse_for_inv R 0 1 ln md p n (length ids) params Hwf Hu Hp Hn Hlen ps Hps) as (s & c & _ & _ & ->).
    unfold the_parsed. cbn [ps_transition]. rewrite Hv, map_map. apply map_ext. intros ffs. cbn [fst snd]. f_equal.
    apply (nth_map_seq (fun t => map (fun name => val (CTransition, t, fst ffs, name))
      (transition_parameters (latent_of md ++ observed_of md) (fs_transition (snd ffs)))) (n - 1) t []). lia.
  Qed.

  Lemma scaling_form t : clean_anchoring md -> (t < n)%nat ->
    in_scaling inp t = arr1 (mask_set (map (is_anchored md) (latent_of md))
        (map (fun fo => val (CLoadings, t, fo_name fo, fst fo)) (outcomes_of md)) (map (fun _ => 1) (latent_of md))
        ++ repeat 1 (length (observed_of md))).
  Proof.
    intros Hc Ht. unfold inp, inputs_of, arr2. cbn [in_scaling]. f_equal.
    destruct (parse_for_inv R 0 1 ln md p n (length ids) params Hwf Hu Hp Hn Hlen ps Hps) as (s & c & Hs & _ & ->).
    unfold the_scaling in Hs. rewrite (parsed_scaling md p Hwf Hp Hc R 0 1) in Hs. injection Hs as <-.
    unfold the_parsed. cbn [ps_scaling]. rewrite Hv. rewrite (PropsParse.n_eq md p n Hp Hn).
    exact (nth_map_seq (fun t => mask_set (map (is_anchored md) (latent_of md))
        (map (fun fo => val (CLoadings, t, fo_name fo, fst fo)) (outcomes_of md)) (map (fun _ => 1) (latent_of md))
        ++ repeat 1 (length (observed_of md))) n t [] Ht).
  Qed.

  Lemma constants_form t : clean_anchoring md -> (t < n)%nat ->
    in_constants inp t = arr1 ((if ignores_constant md then map (fun _ => 0) (latent_of md)
        else mask_set (map (is_anchored md) (latent_of md))
          (map (fun fo => val (CControls, t, fo_name fo, "constant"%string)) (outcomes_of md)) (map (fun _ => 0) (latent_of md)))
        ++ repeat 0 (length (observed_of md))).
  Proof.
    intros Hc Ht. unfold inp, inputs_of, arr2. cbn [in_constants]. f_equal.
    destruct (parse_for_inv R 0 1 ln md p n (length ids) params Hwf Hu Hp Hn Hlen ps Hps) as (s & c & _ & Hk & ->).
    unfold the_constants in Hk. rewrite (parsed_constants md p Hwf Hp Hc R 0) in Hk. injection Hk as <-.
    unfold the_parsed. cbn [ps_constants]. rewrite Hv. rewrite (PropsParse.n_eq md p n Hp Hn).
    exact (nth_map_seq (fun t => (if ignores_constant md then map (fun _ => 0) (latent_of md)
        else mask_set (map (is_anchored md) (latent_of md))
          (map (fun fo => val (CControls, t, fo_name fo, "constant"%string)) (outcomes_of md)) (map (fun _ => 0) (latent_of md)))
        ++ repeat 0 (length (observed_of md))) n t [] Ht).
  Qed.

  Lemma initial_form : initial_belief ps = mk_belief
    (arr3 (repeat (map (fun e => map (fun f => val (CInitStates, O, mixture_name e, f)) (latent_of md))
       (range (n_mixtures_of md))) (length ids)))
    (arr4 (repeat (map (fun e => map (fun r => map (fun c =>
          if (r <=? c)%nat then val (CInitChol, O, mixture_name e,
                              cov_name (nth c (latent_of md) ""%string) (nth r (latent_of md) ""%string)) else 0)
        (seq 0 (length (latent_of md)))) (seq 0 (length (latent_of md)))) (range (n_mixtures_of md))) (length ids)))
    (arr2 (repeat (map (fun e => ln (val (CMixWeights, O, mixture_name e, "-"%string))) (range (n_mixtures_of md))) (length ids))).
  Proof.
    destruct (parse_for_inv R 0 1 ln md p n (length ids) params Hwf Hu Hp Hn Hlen ps Hps) as (s & c & _ & _ & ->).
    unfold the_parsed, initial_belief. cbn [ps_states ps_upper_chols ps_log_weights]. rewrite Hv. reflexivity.
  Qed.

  (** ** Data *)

  Variable given : Z -> nat -> string -> option R.
  Hypothesis Hgiven : forall id t x, In id ids -> (t < n)%nat -> handed_over 1 md n df lv id t x (given id t x).

  Lemma handed_given id t x w : In id ids -> (t < n)%nat -> handed_over 1 md n df lv id t x w -> w = given id t x.
  Proof.
    intros Hid Ht [A B]. destruct (Hgiven id t x Hid Ht) as [C D].
    destruct (Classical_Prop.classic (discarded 1 md n df lv id t)) as [Hd|Hd].
    - now rewrite (A Hd), (C Hd).
    - now rewrite (B Hd), (D Hd).
  Qed.

  Lemma values_form k t v : nth_error (equations md n) k = Some (t, v) ->
    in_values inp k = oarr1 (map (fun id => given id t v) ids).
  Proof.
    intros Hk. unfold inp, inputs_of. cbn [in_values]. f_equal.
    assert (Ht : (t < n)%nat) by (apply (equations_period md n t v); eapply nth_error_In, Hk).
    destruct H as (Hd & _ & Har & _).
    destruct (C29_arrays_by_label 1 req md p n df ids lv ar req_spec Hd Har) as ((Hl & Hrow & Hm) & _).
    assert (Hlt : (k < length (ar_meas ar))%nat) by (rewrite Hl; apply nth_error_Some; congruence).
    pose proof (nth_error_of_nth (ar_meas ar) k [] Hlt) as Hr.
    apply list_ext. intros i. rewrite nth_error_map.
    destruct (nth_error ids i) as [id|] eqn:Ei; cbn [option_map].
    - destruct (Hm k t v i id Hk Ei) as (w & (row & Hr' & Hw) & Hh). rewrite Hr in Hr'. injection Hr' as <-.
      rewrite Hw. f_equal. apply handed_given; [eapply nth_error_In, Ei|exact Ht|exact Hh].
    - apply nth_error_None in Ei. apply nth_error_None. rewrite (Hrow _ (nth_error_In _ _ Hr)). exact Ei.
  Qed.

  Lemma controls_form t : (t < n)%nat ->
    in_controls inp t = oarr2 (map (fun id => map (given id t) ("constant"%string :: controls_of md)) ids).
  Proof.
    intros Ht. unfold inp, inputs_of. cbn [in_controls]. f_equal. destruct H as (Hd & _ & Har & _).
    destruct (C29_arrays_by_label 1 req md p n df ids lv ar req_spec Hd Har) as (_ & (Hl & Hsh & Hm) & _).
    pose proof (nth_error_of_nth (ar_controls ar) t [] ltac:(lia)) as Hr. destruct (Hsh _ (nth_error_In _ _ Hr)) as [Hli Hlc].
    apply list_ext. intros i. rewrite nth_error_map.
    destruct (nth_error ids i) as [id|] eqn:Ei; cbn [option_map].
    - assert (Hi : (i < length (nth t (ar_controls ar) []))%nat) by (rewrite Hli; apply nth_error_Some; congruence).
      pose proof (nth_error_of_nth _ i [] Hi) as Hrow. rewrite Hrow. f_equal.
      apply list_ext. intros j. rewrite nth_error_map.
      destruct (nth_error ("constant"%string :: controls_of md) j) as [c|] eqn:Ej; cbn [option_map].
      + destruct (Hm t i id j c Ht Ei Ej) as (w & (sh & Hs & row & Hr' & Hw) & Hh).
        rewrite Hr in Hs. injection Hs as <-. rewrite Hrow in Hr'. injection Hr' as <-. rewrite Hw. f_equal.
        apply handed_given; [eapply nth_error_In, Ei|exact Ht|exact Hh].
      + apply nth_error_None in Ej. apply nth_error_None. rewrite (Hlc _ (nth_error_In _ _ Hrow)). exact Ej.
    - apply nth_error_None in Ei. apply nth_error_None. rewrite Hli. exact Ei.
  Qed.

  Lemma observed_form t : (t < n)%nat ->
    in_observed inp t = oarr2 (map (fun id => map (given id t) (observed_of md)) ids).
  Proof.
    intros Ht. unfold inp, inputs_of. cbn [in_observed]. f_equal. destruct H as (Hd & _ & Har & _).
    destruct (C29_arrays_by_label 1 req md p n df ids lv ar req_spec Hd Har) as (_ & _ & (Hl & Hsh & Hm)).
    pose proof (nth_error_of_nth (ar_observed ar) t [] ltac:(lia)) as Hr. destruct (Hsh _ (nth_error_In _ _ Hr)) as [Hli Hlc].
    apply list_ext. intros i. rewrite nth_error_map.
    destruct (nth_error ids i) as [id|] eqn:Ei; cbn [option_map].
    - assert (Hi : (i < length (nth t (ar_observed ar) []))%nat) by (rewrite Hli; apply nth_error_Some; congruence).
      pose proof (nth_error_of_nth _ i [] Hi) as Hrow. rewrite Hrow. f_equal.
      apply list_ext. intros j. rewrite nth_error_map.
      destruct (nth_error (observed_of md) j) as [c|] eqn:Ej; cbn [option_map].
      + destruct (Hm t i id j c Ht Ei Ej) as (w & (sh & Hs & row & Hr' & Hw) & Hh).
        rewrite Hr in Hs. injection Hs as <-. rewrite Hrow in Hr'. injection Hr' as <-. rewrite Hw. f_equal.
        apply handed_given; [eapply nth_error_In, Ei|exact Ht|exact Hh].
      + apply nth_error_None in Ej. apply nth_error_None. rewrite (Hlc _ (nth_error_In _ _ Hrow)). exact Ej.
    - apply nth_error_None in Ei. apply nth_error_None. rewrite Hli. exact Ei.
  Qed.
End Forms.

