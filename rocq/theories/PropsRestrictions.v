(** Restrictions on the parameters enter the estimation only through the constraints (C101). *)
Require Import Reals Qreals Lra String Arith ZArith Bool List Lia FunctionalExtensionality.
From Verif Require Import PyBase ListFacts ModelSpec ProcessModel CheckModel SpecModel SpecParse ParamsIndex ParseParams ProcessData
  RSum Kalman Likelihood DebugData TransitionFunctions Simulate Maximization Utilities ParamsVec Related SpecRestrictions ExampleModels PropsControls.
Import ListNotations.
Open Scope R_scope.

Lemma anchoring_form md : exists an fc fk fl,
  process_anchoring md = mk_anchinfo an (outcomes_of md) (dkeys (outcomes_of md)) fc fk fl (ignores_constant md).
Proof.
  unfold process_anchoring, outcomes_of, ignores_constant. destruct (md_anchoring md); do 4 eexists; reflexivity.
Qed.

Lemma add_copies_outcomes {V} (a a' : anchinfo) : a_outcomes a = a_outcomes a' ->
  forall fs columns (rows : list (prow V)), add_copies a fs columns rows = add_copies a' fs columns rows.
Proof.
  intros E fs. induction fs as [|f fs IH]; intros columns rows; [reflexivity|]. cbn [add_copies]. rewrite E.
  destruct (dget_err (a_outcomes a') f); [|reflexivity]. cbn [rbind]. 
  match goal with |- context [if ?b then _ else _] => destruct b end; [apply IH|reflexivity].
Qed.

Section Restrictions.
  Variables (md md' : model_dict) (p p' : processed).
  Hypothesis Hd : differ_in_restrictions md md'.
  Hypothesis Hp : process_model md = Ok p.
  Hypothesis Hp' : process_model md' = Ok p'.

  Lemma restrictions_dget f :
    match dget (md_factors md) f, dget (md_factors md') f with
    | Some fs, Some fs' => fs_measurements fs = fs_measurements fs' /\ fs_transition fs = fs_transition fs'
    | None, None => True
    | _, _ => False
    end.
  Proof.
    destruct Hd as [F _]. induction F as [|[g fs] [g' fs'] l l' (A & B & C) _ IH]; [exact I|]. cbn [fst snd] in *. subst g'.
    cbn [dget]. destruct (String.eqb f g); [auto|exact IH].
  Qed.

  Lemma restrictions_keys : dkeys (md_factors md) = dkeys (md_factors md').
  Proof.
    destruct Hd as [F _]. unfold dkeys. induction F as [|[g fs] [g' fs'] l l' (A & _) _ IH]; [reflexivity|]. cbn in *. congruence.
  Qed.

  Lemma restrictions_transitions : transitions_of md' = transitions_of md.
  Proof.
    destruct Hd as [F _]. unfold transitions_of. symmetry.
    induction F as [|[g fs] [g' fs'] l l' (A & _ & C) _ IH]; [reflexivity|]. cbn in *. congruence.
  Qed.

  Lemma restrictions_dims : get_dimensions md = get_dimensions md'.
  Proof.
    pose proof Hd as (F & Eo & Ec & _ & _ & (o & o' & O & O' & Em & _)). unfold get_dimensions. cbv zeta.
    assert (E : map (fun d => length (fs_measurements d)) (dvalues (md_factors md))
              = map (fun d => length (fs_measurements d)) (dvalues (md_factors md'))).
    { unfold dvalues. clear -F. induction F as [|a b l l' (_ & B & _) _ IH]; [reflexivity|]. cbn. now rewrite B, IH. }
    rewrite E, O, O', Em. change (get_default (md_observed md) []) with (observed_of md).
    change (get_default (md_observed md') []) with (observed_of md'). rewrite Eo.
    change (get_default (md_controls md) []) with (controls_of md).
    change (get_default (md_controls md') []) with (controls_of md'). rewrite Ec.
    assert (El : length (md_factors md) = length (md_factors md')).
    { pose proof restrictions_keys as K. apply (f_equal (@length _)) in K. unfold dkeys in K. now rewrite !map_length in K. }
    now rewrite El.
  Qed.

  (** The processed models have the same components, except for the stages, the
      normalizations, the free parameters of anchoring equations and the bounds. *)
  Lemma restrictions_processed : exists d la ob co per sm st sm' st' an an' out ig fc fk fl fc' fk' fl' ss cl cu lh uh rb bd rb' bd' t u n n',
    p = mk_processed d (mk_labels la ob co per sm st) (mk_anchinfo an out (dkeys out) fc fk fl ig) (mk_options ss rb bd cl cu lh uh) t u n /\
    p' = mk_processed d (mk_labels la ob co per sm' st') (mk_anchinfo an' out (dkeys out) fc' fk' fl' ig) (mk_options ss rb' bd' cl cu lh uh) t u n'.
  Proof.
    unfold process_model in Hp, Hp'. rewrite <- restrictions_dims in Hp'.
    destruct (get_dimensions md) as [d|]; [|discriminate]. cbn [rbind] in Hp, Hp'.
    destruct (check_model md _ d); [|discriminate]. destruct (check_model md' _ d); [|discriminate]. cbn [rbind] in Hp, Hp'.
    pose proof Hd as (F & Eo & Ec & Eout & Eig & (o & o' & O & O' & E1 & E2 & E3 & E4 & E5 & E6)).
    assert (T : get_transition_info md (get_labels md d) = get_transition_info md' (get_labels md' d)).
    { unfold get_transition_info, get_labels, l_all. cbn [l_latent l_observed]. rewrite restrictions_keys.
      change (get_default (md_observed md) []) with (observed_of md).
      change (get_default (md_observed md') []) with (observed_of md'). rewrite Eo. f_equal. apply mapM_ext. intros f _.
      pose proof (restrictions_dget f) as G. unfold dget_err.
      destruct (dget (md_factors md) f), (dget (md_factors md') f); try contradiction; [|reflexivity].
      cbn [rbind]. destruct G as [_ ->]. reflexivity. }
    rewrite T in Hp. destruct (get_transition_info md' _) as [t|]; [|discriminate]. cbn [rbind] in Hp, Hp'.
    destruct (anchoring_form md) as (an & fc & fk & fl & A). destruct (anchoring_form md') as (an' & fc' & fk' & fl' & A').
    rewrite <- Eout, <- Eig in A'.
    assert (U : get_update_info md d (get_labels md d) (process_anchoring md)
              = get_update_info md' d (get_labels md' d) (process_anchoring md')).
    { rewrite A, A'. unfold get_update_info, get_labels. cbn [l_latent l_periods a_outcomes]. rewrite restrictions_keys.
      f_equal. apply mapM_ext. intros f _. pose proof (restrictions_dget f) as G. unfold dget_err.
      destruct (dget (md_factors md) f), (dget (md_factors md') f); try contradiction; [|reflexivity].
      cbn [rbind]. destruct G as [-> _]. reflexivity. }
    rewrite U in Hp. destruct (get_update_info md' _ _ _) as [u|]; [|discriminate]. cbn [rbind] in Hp, Hp'.
    destruct (process_normalizations md _ _) as [n|]; [|discriminate].
    destruct (process_normalizations md' _ _) as [n'|]; [|discriminate]. cbn [rbind] in Hp, Hp'.
    injection Hp as <-. injection Hp' as <-. rewrite A, A'. unfold get_labels, process_estimation_options.
    rewrite O, O'. cbv zeta.
    match goal with |- context [get_default (Some o) ?x] => change (get_default (Some o) x) with o end.
    match goal with |- context [get_default (Some o') ?x] => change (get_default (Some o') x) with o' end.
    rewrite E2, E3, E4, E5, E6, restrictions_keys.
    change (get_default (md_observed md) []) with (observed_of md).
    change (get_default (md_observed md') []) with (observed_of md'). rewrite Eo.
    change (get_default (md_controls md) []) with (controls_of md).
    change (get_default (md_controls md') []) with (controls_of md'). rewrite Ec.
    do 32 eexists. split; reflexivity.
  Qed.
End Restrictions.

(** *** C101 Restrictions enter only through the constraints
    Normalizations, stages, free parameters in anchoring equations and bounds on standard
    deviations have no effect on the index of the parameters or on any function of the
    parameters: the log likelihood, its debug output and its derivatives, the filtered
    states and simulated data sets are the same functions of data and parameters for all
    specifications that differ only in them; errors are the same, too. *)
Theorem C101_restrictions :
  forall md md' p p', differ_in_restrictions md md' -> process_model md = Ok p -> process_model md' = Ok p' ->
    params_index_of p' = params_index_of p /\
    forall qr nan neg_inf custom,
      let tfunc := model_tfunc nan neg_inf custom md (p_labels p) in
      let tfunc' := model_tfunc nan neg_inf custom md' (p_labels p') in
      (forall df debug, loglike_function qr nan tfunc' md' df debug = loglike_function qr nan tfunc md df debug) /\
      (forall df params, get_filtered_states qr nan tfunc' md' df params = get_filtered_states qr nan tfunc md df params) /\
      (forall G (rnd : random G) params n_obs data policies g,
         simulate_dataset nan tfunc' rnd md' params n_obs data policies g = simulate_dataset nan tfunc rnd md params n_obs data policies g).
Proof.
  intros md md' p p' Hd Hp Hp'.
  pose proof (restrictions_processed md md' p p' Hd Hp Hp') as
    (d & la & ob & co & per & sm & st & sm' & st' & an & an' & out & ig & fc & fk & fl & fc' & fk' & fl' & ss & cl & cu & lh & uh
     & rb & bd & rb' & bd' & t & u & n & n' & E & E').
  split; [subst p p'; reflexivity|]. intros qr nan neg_inf custom tfunc tfunc'.
  assert (Et : tfunc' = tfunc).
  { unfold tfunc, tfunc'. apply related_tfunc; [exact Hp|exact Hp'|now apply restrictions_transitions|]. symmetry. apply Hd. }
  rewrite Et. clearbody tfunc. clear tfunc' Et.
  assert (D : forall df b, process_data 1 req df (p_labels p') (p_update p') (p_anch p') b = process_data 1 req df (p_labels p) (p_update p) (p_anch p) b).
  { subst p p'. intros. cbn [p_labels p_update p_anch]. unfold process_data, prepare_data. cbn [l_periods a_factors].
    destruct (pre_process_data df per) as [rows|]; [|reflexivity]. cbn [rbind].
    rewrite (add_copies_outcomes (mk_anchinfo an' out (dkeys out) fc' fk' fl' ig) (mk_anchinfo an out (dkeys out) fc fk fl ig) eq_refl). reflexivity. }
  assert (PF : forall v k, parse_for 0 1 ln p' v k = parse_for 0 1 ln p v k).
  { subst p p'. intros. reflexivity. }
  assert (LA : forall ps m, loop_args p' ps m = loop_args p ps m).
  { subst p p'. intros. reflexivity. }
  assert (A : forall df params, anchor_states_df df md' params = anchor_states_df df md params).
  { intros df params. unfold anchor_states_df. rewrite Hp, Hp'. cbn [rbind]. subst p p'. reflexivity. }
  assert (LL : forall ar debug v, log_likelihood qr nan tfunc p' ar debug v = log_likelihood qr nan tfunc p ar debug v).
  { intros. unfold log_likelihood. rewrite PF. subst p p'. cbn [p_dims p_options]. reflexivity. }
  assert (PI : params_index_of p' = params_index_of p) by (subst p p'; reflexivity).
  split; [|split].
  - intros df debug. unfold loglike_function. rewrite Hp, Hp'. cbn [rbind]. rewrite D.
    destruct (process_data 1 req df (p_labels p) (p_update p) (p_anch p) true) as [ar|]; [|reflexivity]. cbn [rbind].
    f_equal. extensionality params. rewrite PI. destruct (get_params_vec params (params_index_of p)); [|reflexivity]. apply LL.
  - intros df params. unfold get_filtered_states, debug_loglike. rewrite Hp, Hp'. cbn [rbind]. rewrite D, PI.
    destruct (process_data 1 req df (p_labels p) (p_update p) (p_anch p) true) as [ar|]; [|reflexivity]. cbn [rbind].
    destruct (loc_rows params (params_index_of p)) as [rows|]; [|reflexivity]. cbn [rbind].
    destruct (get_params_vec rows (params_index_of p)) as [v|]; [|reflexivity]. cbn [rbind]. rewrite LL.
    destruct (log_likelihood qr nan tfunc p ar true v) as [o|]; [|reflexivity]. cbn [rbind].
    destruct (out_debug o) as [dbg|]; [|reflexivity].
    assert (PD : process_debug_data p' (length (nth 0 (ar_controls ar) [])) o dbg = process_debug_data p (length (nth 0 (ar_controls ar) [])) o dbg)
      by (subst p p'; reflexivity).
    rewrite PD. destruct (process_debug_data p _ o dbg) as [tables|]; [|reflexivity]. cbn [rbind]. rewrite A.
    destruct (anchor_states_df (dt_filtered_states tables) md rows); [|reflexivity]. cbn [rbind]. subst p p'. reflexivity.
  - intros G rnd params n_obs data policies g. unfold simulate_dataset. rewrite Hp, Hp'.
    destruct (is_none data && is_none n_obs); [reflexivity|]. cbn [rbind].
    assert (Eo : l_observed (p_labels p') = l_observed (p_labels p)) by (subst p p'; reflexivity).
    assert (Ec : l_controls (p_labels p') = l_controls (p_labels p)) by (subst p p'; reflexivity).
    assert (El : l_latent (p_labels p') = l_latent (p_labels p)) by (subst p p'; reflexivity).
    rewrite Eo, Ec, El, PI.
    destruct (negb (is_nil (l_observed (p_labels p))) && is_none data); [reflexivity|].
    destruct (negb (is_nil (tl (l_controls (p_labels p)))) && is_none data); [reflexivity|].
    assert (SF : forall k ps c o pol s, simulate_from nan tfunc rnd p' k ps c o pol s = simulate_from nan tfunc rnd p k ps c o pol s)
      by (intros; subst p p'; reflexivity).
    destruct data as [df|]; [rewrite D; destruct (process_data 1 req df (p_labels p) (p_update p) (p_anch p) false) as [ar|]; [|reflexivity]|];
      cbn [rbind fst snd]; (destruct (reindex_params nan params (params_index_of p)) as [ps|]; [|reflexivity]); cbn [rbind]; rewrite PF;
      (destruct (parse_for 0 1 ln p (map snd ps) _) as [pp|]; [|reflexivity]); cbn [rbind]; rewrite SF;
      (match goal with |- rbind ?x _ = _ => destruct x as [out0|] end; [|reflexivity]); cbn [rbind]; rewrite A; reflexivity.
Qed.
Print Assumptions C101_restrictions.

(** The example model without normalizations, with other stages, restricted anchoring
    equations and no robust bounds. *)
Definition loose_model : model_dict :=
  mk_md (map (fun fa => (fst fa, mk_factor (fs_measurements (snd fa)) (fs_transition (snd fa)) None)) (md_factors small_model))
    (md_observed small_model) (md_controls small_model) (Some [0; 0]%Z)
    (option_map (fun a => mk_anch (as_outcomes a) None None None (as_ignore_constant a)) (md_anchoring small_model))
    (option_map (fun o => mk_opts (os_n_mixtures o) (os_sigma_points_scale o) (Some false) None
       (os_clip_lower o) (os_clip_upper o) (os_clip_lower_hardness o) (os_clip_upper_hardness o)) (md_options small_model)).

Example C101_nonvacuous : exists p p', differ_in_restrictions small_model loose_model /\
  process_model small_model = Ok p /\ process_model loose_model = Ok p' /\
  p_norms p <> p_norms p' /\ l_stagemap (p_labels p) <> l_stagemap (p_labels p') /\
  a_free_loadings (p_anch p) <> a_free_loadings (p_anch p') /\ o_bounds_distance (p_options p) <> o_bounds_distance (p_options p') /\
  (length (params_index_of p) >= 50)%nat.
Proof.
  eexists _, _. split; [|split; [vm_compute; reflexivity|split; [vm_compute; reflexivity|]]].
  - split; [repeat constructor|]. do 4 (split; [reflexivity|]). do 2 eexists. repeat (split; [reflexivity|]). reflexivity.
  - split; [discriminate|]. split; [discriminate|]. split; [discriminate|]. split; [discriminate|]. vm_compute. repeat constructor.
Qed.
