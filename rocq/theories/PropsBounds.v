(** Bounds of reduced and extended tables (C118). *)
Require Import String Arith ZArith QArith Bool List Lia.
From Verif Require Import PyBase ListFacts StringFacts ModelSpec ProcessModel CheckModel SpecModel ProcessModelFacts AcceptFacts
  ParamsIndex SpecIndex IndexFacts ParseParams ParamsVec Constraints SpecConstraints ConstraintFacts ExampleModels PropsSpec PropsParse PropsConstraints
  Utilities SpecUtilities UtilitiesFacts PropsUtilities SpecSteps StepFacts PropsSteps SpecReduced PropsReduced.
Import ListNotations.
Open Scope string_scope.
Open Scope list_scope.
Open Scope nat_scope.

Lemma options_after steps : forall md, md_options (after_steps steps md) = md_options md.
Proof. unfold after_steps. induction steps as [|s steps IH]; intros md; [reflexivity|]. cbn [fold_left]. now rewrite IH. Qed.

Lemma same_bound md p md' p' : md_options md' = md_options md -> process_model md = Ok p -> process_model md' = Ok p' ->
  o_bounds_distance (p_options p') = o_bounds_distance (p_options p).
Proof. intros E Hp Hp'. rewrite (o_bounds_distance_eq md p Hp), (o_bounds_distance_eq md' p' Hp'). unfold bounds_distance_of. now rewrite E. Qed.

Lemma template_In p lb b : In (lb, b) (params_template p) <->
  In lb (params_index_of p) /\ b = if bounded lb then Some (o_bounds_distance (p_options p)) else None.
Proof.
  rewrite params_template_eq, in_map_iff. split; [intros (x & [= <- <-] & H); auto|intros [H ->]; exists lb; auto].
Qed.

Lemma template_index p : map fst (params_template p) = params_index_of p.
Proof. rewrite params_template_eq, map_map. apply map_id. Qed.

(** After any sequence of reductions the table has the rows of the params template of the
    reduced model, in its order, and its lower bounds. *)
Theorem C118_reduced_bounds :
  forall md p params steps md' t' p',
    wf_dicts md -> good_names md -> process_model md = Ok p -> pf_index params = map fst (params_template p) -> In "value" (pf_columns params) ->
    bounds_are_those_of p params ->
    positive_periods steps -> do_steps steps md (Some params) = Ok (md', Some t') -> process_model md' = Ok p' ->
    pf_index t' = map fst (params_template p') /\ bounds_are_those_of p' t'.
Proof.
  intros md p params steps md' t' p' Hwf Hg Hp Hi Hcol [Hlow Hb] Hpos H Hp'. rewrite template_index in *.
  destruct steps as [|s rest] eqn:Es.
  { cbn in H. injection H as <- <-. assert (p' = p) as -> by congruence. split; [exact Hi|now split]. }
  rewrite <- Es in *. assert (Hc : covers md params).
  { split; rewrite Hi; [now apply (NoDup_params_index md)|]. intros lb Hlb. now apply (In_params_index md p lb Hwf Hp). }
  assert (Hr : ready md p params) by exact (conj Hwf (conj Hg (conj Hp (conj Hc Hcol)))).
  destruct (steps_table steps md p params md' (Some t') Hr (positive_all steps Hpos) ltac:(rewrite Es; discriminate) H) as (t & p1 & [= <-] & R & I & [Ecol D]).
  assert (p1 = p') as -> by (destruct R as (_ & _ & Hp1 & _); congruence).
  split; [exact I|]. split; [now rewrite Ecol|].
  intros lb b cells' Hin Hrow. apply template_In in Hin as [Hin ->].
  destruct (D lb cells' Hrow) as (cells & Hold & E). rewrite (E "lower_bound" Hlow).
  assert (B : cells "lower_bound" = bound_cell (if bounded lb then Some (o_bounds_distance (p_options p)) else None)).
  { apply (Hb lb); [|exact Hold]. apply template_In. split; [|reflexivity]. rewrite <- Hi. now apply (in_map fst) in Hold. }
  rewrite B. assert (Eo : o_bounds_distance (p_options p') = o_bounds_distance (p_options p)).
  { apply (same_bound md p md' p'); [|exact Hp|exact Hp']. rewrite (steps_result steps md _ _ _ H). apply options_after. }
  rewrite Eo. destruct (bounded lb), (existsb fills steps); reflexivity.
Qed.
Print Assumptions C118_reduced_bounds.

(** The same for the table that switching to translog returns: new parameters are not
    bounded. *)
Theorem C118_extended_bounds :
  forall md p params md' t' p',
    wf_dicts md -> good_names md -> process_model md = Ok p -> pf_index params = map fst (params_template p) -> In "value" (pf_columns params) ->
    bounds_are_those_of p params ->
    switch_linear_to_translog md (Some params) = Ok (md', Some t') -> process_model md' = Ok p' ->
    pf_index t' = map fst (params_template p') /\ bounds_are_those_of p' t'.
Proof.
  intros md p params md' t' p' Hwf Hg Hp Hi Hcol [Hlow Hb] H Hp'. rewrite template_index in *.
  assert (Hnd : NoDup (pf_index params)) by (rewrite Hi; now apply (NoDup_params_index md)).
  destruct (C53_extended_partial md p params Hwf Hp Hnd Hcol) as (md1 & p1 & t1 & E & Hp1 & I & [Ecol Hext] & _).
  assert (Emd : md' = map_factors (switch_transition "linear" "translog") md) by exact (with_params_model _ _ _ _ _ H).
  rewrite H in E. injection E as <- <-. assert (p1 = p') as -> by congruence. clear Hp1.
  split; [exact I|]. split; [now rewrite Ecol|].
  intros lb b cells' Hin Hrow. apply template_In in Hin as [Hin ->]. destruct (Hext lb cells' "lower_bound" Hrow Hlow) as [G1 G2].
  assert (Eo : o_bounds_distance (p_options p') = o_bounds_distance (p_options p)) by (apply (same_bound md p md' p'); [now rewrite Emd|exact Hp|exact Hp']).
  rewrite Eo. destruct (row_value (pf_rows params) lb) as [cells|] eqn:Er.
  - apply (row_value_In (pf_rows params) lb cells Hnd) in Er. destruct (G1 cells Er) as [G _].
    assert (B : cells "lower_bound" = bound_cell (if bounded lb then Some (o_bounds_distance (p_options p)) else None)).
    { apply (Hb lb); [|exact Er]. apply template_In. split; [|reflexivity]. rewrite <- Hi. now apply (in_map fst) in Er. }
    rewrite G; rewrite B; [reflexivity|now destruct (bounded lb)].
  - assert (Hno : ~ In lb (pf_index params)) by (intros F; now apply row_value_in in F). rewrite (G2 Hno).
    assert (Hno' : ~ is_param md lb) by (intros F; apply Hno; rewrite Hi; now apply (In_params_index md p lb Hwf Hp)).
    assert (Hwf' : wf_dicts md') by (rewrite Emd; now apply map_factors_wf).
    apply (In_params_index md' p' lb Hwf' Hp') in Hin.
    destruct (bounded lb) eqn:Eb; [|reflexivity]. exfalso. apply Hno'. rewrite Emd in Hin.
    destruct (p_dims_eq md p Hp) as (_ & _ & _ & _ & Hn & _). apply (switched_labels md _ lb Hn); [|exact Hin].
    intros C. unfold bounded, is_cat in Eb. rewrite C in Eb. discriminate.
Qed.
Print Assumptions C118_extended_bounds.

(** A reduced model is nested in the model. *)
Lemma nested_after s md : nested (after_step s md) md.
Proof.
  constructor.
  - apply latent_sublist.
  - reflexivity.
  - intros c. exact (sublist_In _ _ c (controls_sublist s md)).
  - reflexivity.
  - intros f o H. destruct s as [a|a|a|k|]; try exact H. destruct H as (an & outs & E & Eo & Hin).
    change (md_anchoring (after_step (RemoveFactors a) md)) with (less_anchoring a (md_anchoring md)) in E.
    unfold anchored. unfold less_anchoring in E. destruct (md_anchoring md) as [a0|]; [|discriminate].
    destruct (as_outcomes a0) as [outs0|] eqn:E0.
    + destruct (remove_from_dict outs0 a) as [|x l] eqn:Er; [discriminate|]. injection E as <-. cbn [as_outcomes] in Eo. injection Eo as <-.
      exists a0, outs0. split; [reflexivity|]. split; [exact E0|]. rewrite <- Er in Hin. now apply remove_from_dict_In in Hin as [Hin _].
    + injection E as <-. congruence.
  - intros f fs' Hin. apply after_step_inv in Hin as (fs & Hin & _ & ->). exists fs. split; [exact Hin|]. split.
    + intros t ms' Ht.
      assert (S : forall k, nth_error (firstn k (fs_measurements fs)) t = Some ms' -> exists ms, nth_error (fs_measurements fs) t = Some ms /\ incl ms' ms).
      { intros k H. exists ms'. split; [exact (nth_firstn _ _ _ _ H)|apply incl_refl]. }
      destruct s as [a|a|a|k|]; cbn [step_change ch_factor] in Ht; try (exists ms'; split; [exact Ht|apply incl_refl]); try exact (S _ Ht).
      unfold reduced_factor in Ht. cbn [fs_measurements] in Ht. rewrite nth_error_map in Ht.
      destruct (nth_error (fs_measurements fs) t) as [ms|] eqn:E; [|discriminate]. injection Ht as <-. exists ms. split; [reflexivity|].
      intros x Hx. now apply remove_from_list_In in Hx.
    + change (observed_of (after_step s md)) with (observed_of md).
      assert (I : forall t, incl (transition_parameters (latent_of (after_step s md) ++ observed_of md) t) (transition_parameters (latent_of md ++ observed_of md) t)).
      { intros t. apply sublist_transition_parameters, sublist_app, latent_sublist. }
      destruct (transition_left s md fs) as [->|[E ->]]; [apply I|]. rewrite E. exact (incl_tran (I (TStr "linear")) (linear_in_translog _)).
Qed.

Lemma params_after steps md p p' lb : wf_dicts md -> process_model md = Ok p -> process_model (after_steps steps md) = Ok p' ->
  In lb (params_index_of p') -> In lb (params_index_of p).
Proof.
  intros Hwf Hp Hp' H. apply (In_params_index _ p' lb (wf_steps steps md Hwf) Hp') in H. apply (In_params_index md p lb Hwf Hp).
  destruct (p_dims_eq md p Hp) as (_ & _ & _ & _ & Hn & _). clear Hp Hp' Hwf.
  assert (N : steps = [] \/ nested (after_steps steps md) md).
  { unfold after_steps. clear. revert md. induction steps as [|s steps IH]; intros md; [now left|]. right. cbn [fold_left].
    destruct (IH (after_step s md)) as [->|N]; [apply nested_after|]. exact (nested_trans _ _ _ N (nested_after s md)). }
  destruct N as [->|N]; [exact H|]. exact (nested_is_param _ md _ lb N Hn H).
Qed.

(** Values within the bounds stay within the bounds. *)
Theorem C118_values_within_bounds :
  forall md p v steps params md' t' p',
    wf_dicts md -> good_names md -> process_model md = Ok p -> covers md params -> In "value" (pf_columns params) ->
    positive_periods steps -> do_steps steps md (Some params) = Ok (md', Some t') -> process_model md' = Ok p' ->
    within_bounds (params_template p) v -> within_bounds (params_template p') v.
Proof.
  intros md p v steps params md' t' p' Hwf Hg Hp Hc Hcol Hpos H Hp' Hv lb b Hin. apply template_In in Hin as [Hin Eb].
  assert (Eo : o_bounds_distance (p_options p') = o_bounds_distance (p_options p)).
  { apply (same_bound md p md' p'); [|exact Hp|exact Hp']. rewrite (steps_result steps md _ _ _ H). apply options_after. }
  apply (Hv lb b). apply template_In. rewrite <- Eo. split; [|exact Eb].
  rewrite (steps_result steps md _ _ _ H) in Hp'. exact (params_after steps md p p' lb Hwf Hp Hp' Hin).
Qed.
Print Assumptions C118_values_within_bounds.

(** ** An example *)

Definition template_table (p : processed) (v : label -> Q) : pframe :=
  mk_pframe ["value"; "lower_bound"] (map (fun r => (fst r, fun c => if String.eqb c "value" then PNum (v (fst r)) else bound_cell (snd r))) (params_template p)).

Lemma template_table_bounds p v : NoDup (params_index_of p) -> bounds_are_those_of p (template_table p v).
Proof.
  intros Hnd. split; [right; now left|]. intros lb b cells Hin Hrow. unfold template_table in Hrow. cbn [pf_rows] in Hrow.
  apply in_map_iff in Hrow as ([l b'] & [= <- <-] & Hin'). cbn [fst snd] in *. change (String.eqb "lower_bound" "value") with false. cbv iota.
  f_equal. rewrite <- template_index in Hnd. exact (row_value_unique (params_template p) l b' b Hnd Hin' Hin).
Qed.

Example C118_nonvacuous :
  let params := template_table stage_p stage_v in
  wf_dicts stage_model /\ good_names stage_model /\ process_model stage_model = Ok stage_p /\
  pf_index params = map fst (params_template stage_p) /\ In "value" (pf_columns params) /\ bounds_are_those_of stage_p params /\
  positive_periods reduced_steps /\ within_bounds (params_template stage_p) stage_v /\
  (exists md' t' p', do_steps reduced_steps stage_model (Some params) = Ok (md', Some t') /\ process_model md' = Ok p' /\
     exists lb, In (lb, Some (1 # 1000)%Q) (params_template p')) /\
  (exists md' t' p', switch_linear_to_translog stage_model (Some params) = Ok (md', Some t') /\ process_model md' = Ok p').
Proof.
  cbv zeta. split; [exact stage_model_wf|]. split; [exact stage_model_good_names|]. split; [exact stage_model_accepted|].
  split; [unfold pf_index, template_table; cbn [pf_rows]; rewrite map_map; reflexivity|]. split; [now left|].
  split; [apply template_table_bounds; exact (NoDup_params_index _ _ stage_model_wf stage_model_good_names stage_model_accepted)|].
  split; [intros k Hk; cbn in Hk; repeat destruct Hk as [Hk|Hk]; try discriminate Hk; [injection Hk as <-; lia|destruct Hk]|].
  split.
  { assert (G : forallb (fun r => match snd r with Some b => Qle_bool b (stage_v (fst r)) | None => true end) (params_template stage_p) = true) by (vm_compute; reflexivity).
    rewrite forallb_forall in G. intros lb b Hin. specialize (G _ Hin). cbn [fst snd] in G. apply Qle_bool_iff. exact G. }
  split.
  - do 3 eexists. split; [vm_compute; reflexivity|]. split; [vm_compute; reflexivity|]. exists (CMeasSds, 0, "a", "-").
    apply template_In. split; [|vm_compute; reflexivity].
    match goal with |- In ?x ?l => assert (E : existsb (label_eqb x) l = true) by (vm_compute; reflexivity) end.
    apply existsb_exists in E as (y & Hy & Ey). apply label_eqb_spec in Ey. rewrite Ey. exact Hy.
  - do 3 eexists. split; vm_compute; reflexivity.
Qed.
