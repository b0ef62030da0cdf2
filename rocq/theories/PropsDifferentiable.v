(** C99: the log likelihood has partial derivatives, and they are what the gradient
    contains. *)
From Coquelicot Require Import Coquelicot.
Require Import Reals Qreals Lra Lia Arith ZArith Bool String List.
From Verif Require Import PyBase ListFacts ModelSpec ProcessModel CheckModel SpecModel ProcessModelFacts
  SpecParse SpecIndex IndexFacts ParamsIndex ParseParams ParseFacts ExampleModels PropsSpec PropsParse ParamsVec ProcessData SpecData PropsData
  RSum Kalman SpecKalman KalmanFacts QRWitness Clipping Likelihood SpecLikelihood LikelihoodRun
  PropsFiltered TransitionFunctions SpecTransition TransitionFacts PropsTransition PropsLikelihood Maximization SpecGradient PropsGradient
  Smooth FilterSmooth ModelSmooth LikelihoodFacts.
Import ListNotations.
Open Scope R_scope.

(** The rows of the DataFrame are the labelled entries of the vector. *)
Lemma rows_of_vector (params : list (label * R)) idx v l r : NoDup (map fst params) -> NoDup idx ->
  get_params_vec params idx = Ok v -> In (l, r) (combine idx v) -> In (l, r) params.
Proof.
  intros Hnd Hidx Hv Hin. destruct (C13_errors R params idx Hnd) as (H1 & _ & H3).
  pose proof (proj1 H1 (ex_intro _ v Hv)) as Hsame. destruct (H3 v Hv) as [Hlen Hlab].
  assert (exists j, nth_error idx j = Some l /\ nth_error v j = Some r) as (j & Hj & Hr).
  { clear -Hin. revert v Hin. induction idx as [|a idx IH]; intros [|b v] Hin; try destruct Hin.
    - injection H as -> ->. exists O. auto.
    - destruct (IH v H) as (j & A & B). exists (S j). auto. }
  assert (Hl : In l (map fst params)) by (apply Hsame; eapply nth_error_In, Hj).
  apply in_map_iff in Hl as ([l0 x] & E & Hx). cbn [fst] in E. subst l0.
  destruct (Hlab l x Hx) as (a & Ea & Eva).
  assert (a = j) as ->. { apply (proj1 (NoDup_nth_error idx) Hidx); [apply nth_error_Some; congruence|congruence]. }
  replace r with x by congruence. exact Hx.
Qed.

(** At every parameter in the interior, the contributions of all individuals and the value
    of the log likelihood have a partial derivative with respect to each parameter, and
    loglike can be evaluated for every value of that parameter. *)
Theorem C99_differentiable :
  forall qr nan neg_inf custom grad jax_attribute md p n df ids lv jt mi params out,
    correct_qr qr -> total_custom custom -> differentiable_transitions custom md ->
    data_setting md p n df ids lv -> good_names md -> clean_anchoring md ->
    0 <= Q2R (o_sigma_points_scale (p_options p)) ->
    get_maximization_inputs qr nan (model_tfunc nan neg_inf custom md (p_labels p)) grad jax_attribute md df jt = Ok mi ->
    NoDup (map fst params) -> mi_loglike mi params = Ok out -> interior md params ->
    forall lb x, In (lb, x) params ->
      (forall y, exists out', mi_loglike mi (set_value params lb y) = Ok out') /\
      exists dc d, partial_derivative (mi_loglike mi) params lb d /\ d = rsum (length ids) dc /\
        forall i, (i < length ids)%nat -> is_derive (contribution_along (mi_loglike mi) params lb i) x (dc i : R).
Proof.
  intros qr nan neg_inf custom grad jax_attribute md p n df ids lv jt mi params out Hqr Hcustom Hdt Hds Hg Hclean Hkappa E Hnd Hout Hint lb x Hin.
  destruct (inputs_parts _ _ _ _ _ _ _ _ _ E) as (p' & ar & jac & Hp & Har & _ & _ & EL & _).
  assert (Hp' : process_model md = Ok p) by apply Hds. rewrite Hp' in Hp. injection Hp as <-.
  assert (Hwf : wf_dicts md) by apply Hds. pose proof (idx_labels_unique md p Hwf Hg Hp') as Hidx.
  set (tfunc := model_tfunc nan neg_inf custom md (p_labels p)) in *.
  pose proof Hout as Ho. rewrite EL in Ho.
  destruct (get_params_vec params (params_index_of p)) as [v|e] eqn:Ev; cbn [rbind] in Ho; [|discriminate Ho].
  destruct (C13_errors R params (params_index_of p) Hnd) as (_ & _ & H3). destruct (H3 v Ev) as [Hlen Hlab].
  destruct (Hlab lb x Hin) as (k & Hk & Hx).
  assert (exists ps, likelihood_setting md p n df ids lv ar v ps) as [ps H].
  { destruct (parse_for 0 1 ln p v (length ids)) as [ps|e] eqn:Eps.
    - exists ps. split; [exact Hds|]. auto.
    - exfalso. unfold log_likelihood in Ho.
      assert (Hn : has_n_periods md n) by apply Hds.
      destruct (p_dims_eq md p Hp') as (_ & _ & _ & _ & Hn' & Hn1).
      rewrite (has_n_periods_fun md _ _ Hn' Hn) in Hn1.
      destruct (C29_arrays_by_label 1 req md p n df ids lv ar req_spec Hds Har) as (_ & (Hl & Hsh & _) & _).
      assert (E0 : length (nth 0 (ar_controls ar) []) = length ids).
      { clear -Hl Hsh Hn1. destruct (ar_controls ar) as [|s l]; [simpl in Hl; lia|]. apply Hsh. now left. }
      rewrite E0, Eps in Ho. discriminate Ho. }
  assert (Hint' : interior md (combine (params_index_of p) v)).
  { pose proof (fun l r => rows_of_vector params _ v l r Hnd Hidx Ev) as Hrow.
    destruct Hint as (I1 & I2 & I3 & I4 & I5 & I6 & I7). repeat split; eauto. }
  destruct (likelihood_smooth md p n df ids lv ar v ps H Hclean k lb x Hk Hx Hint' nan neg_inf custom Hcustom Hdt qr Hqr Hkappa out Ho)
    as (S1 & S2 & S3). fold tfunc in S1, S2, S3.
  set (at_ := output_at md p ar v k nan neg_inf custom qr out) in *.
  assert (Hat : forall y, mi_loglike mi (set_value params lb y) = Ok (at_ y)).
  { intros y. rewrite EL, (set_value_vec params _ v lb k y Hnd Hidx Ev Hk). cbn [rbind]. apply S1. }
  split; [intros y; exists (at_ y); apply Hat|].
  set (dc := fun i => Derive (fun y : R => out_contributions (at_ y) i) x).
  assert (Hdc : forall i, (i < length ids)%nat -> is_derive (fun y : R => out_contributions (at_ y) i) x (dc i : R)).
  { intros i Hi. apply Derive_correct. exact (S2 i Hi). }
  exists dc, (rsum (length ids) dc). split; [|split; [reflexivity|]].
  - exists x. split; [exact Hin|].
    eapply is_derive_ext; [|exact (is_derive_rsum (length ids) (fun i y => out_contributions (at_ y) i) dc x Hdc)].
    intros y. unfold value_along. rewrite Hat. cbv beta. symmetry. apply S3.
  - intros i Hi. eapply is_derive_ext; [|exact (Hdc i Hi)]. intros y. unfold contribution_along. now rewrite Hat.
Qed.
Print Assumptions C99_differentiable.

(** Hence every entry of gradient and of the Jacobian is the partial derivative. *)
Theorem C99_gradient_entries :
  forall qr nan neg_inf custom grad jax_attribute md p n df ids lv jt mi params out,
    correct_qr qr -> total_custom custom -> differentiable_transitions custom md ->
    correct_jax grad jax_attribute -> jt = "jacrev"%string \/ jt = "jacfwd"%string ->
    data_setting md p n df ids lv -> good_names md -> clean_anchoring md ->
    0 <= Q2R (o_sigma_points_scale (p_options p)) ->
    get_maximization_inputs qr nan (model_tfunc nan neg_inf custom md (p_labels p)) grad jax_attribute md df jt = Ok mi ->
    NoDup (map fst params) -> mi_loglike mi params = Ok out -> interior md params ->
    exists g j, mi_gradient mi params = Ok g /\ mi_jacobian mi params = Ok j /\
      mi_loglike_and_gradient mi params = Ok (out, g) /\
      length g = length (mi_params_template mi) /\ length j = length (mi_params_template mi) /\
      forall k lb bound, nth_error (mi_params_template mi) k = Some (lb, bound) ->
        exists d, partial_derivative (mi_loglike mi) params lb d /\
          nth_error g k = Some d /\ nth_error j k = Some d.
Proof.
  intros qr nan neg_inf custom grad jax_attribute md p n df ids lv jt mi params out Hqr Hcustom Hdt Hjax Hjt Hds Hg Hclean Hkappa E Hnd Hout Hint.
  assert (Hwf : wf_dicts md) by apply Hds.
  destruct (proj2 (C98_gradient _ _ _ _ _ _ _ _ _ _ Hjax Hjt Hwf Hg E Hnd) out Hout) as (g & j & Eg & Ej & Elg & Lg & Lj & Hk).
  exists g, j. do 5 (split; [assumption|]).
  intros k lb bound Hkb.
  destruct (inputs_parts _ _ _ _ _ _ _ _ _ E) as (p' & ar & jac & Hp & _ & _ & Ht & EL & _).
  assert (exists x, In (lb, x) params) as [x Hx].
  { pose proof Hout as Ho. rewrite EL in Ho.
    destruct (get_params_vec params (params_index_of p')) as [v|e] eqn:Ev; cbn [rbind] in Ho; [|discriminate Ho].
    destruct (C13_errors R params (params_index_of p') Hnd) as (H1 & _ & _).
    pose proof (proj1 H1 (ex_intro _ v Ev)) as Hsame.
    assert (Hl : In lb (map fst params)).
    { apply Hsame. rewrite <- Ht. apply in_map_iff. exists (lb, bound). split; [reflexivity|]. eapply nth_error_In, Hkb. }
    apply in_map_iff in Hl as ([l0 x] & E0 & Hx). cbn [fst] in E0. subst l0. eauto. }
  destruct (C99_differentiable _ _ _ _ _ _ _ _ _ _ _ _ _ _ _ _ Hqr Hcustom Hdt Hds Hg Hclean Hkappa E Hnd Hout Hint lb x Hx) as (_ & _ & d & Hd & _).
  exists d. split; [exact Hd|]. exact (Hk k lb bound d Hkb Hd).
Qed.
Print Assumptions C99_gradient_entries.

(** A model with a translog and a custom transition function, shared measurements, an
    observed factor, a control and anchoring, at a parameter in the interior. *)
Definition single_rows : list (label * R) := combine (params_index_of single_p) single_params.

Lemma counting_positive m x : In x (map INR (seq 1 m)) -> 0 < x.
Proof. intros Hin. apply in_map_iff in Hin as (q & <- & Hq). apply in_seq in Hq. apply lt_0_INR. lia. Qed.

Lemma single_rows_positive lb x : In (lb, x) single_rows -> 0 < x.
Proof. intros Hin. exact (counting_positive _ x (in_combine_r _ _ _ _ Hin)). Qed.

Lemma single_interior : interior single_model single_rows.
Proof.
  split; [|split; [|split; [|split; [|split; [|split]]]]].
  - intros t v x Hin. apply Rgt_not_eq, (single_rows_positive _ _ Hin).
  - intros e f x Hin. apply Rgt_not_eq, (single_rows_positive _ _ Hin).
  - intros e x Hin. exact (single_rows_positive _ _ Hin).
  - intros t f fs x _ Hin. left. apply Rgt_not_eq, (single_rows_positive _ _ Hin).
  - intros t f o x _ Hin. apply Rgt_not_eq, (single_rows_positive _ _ Hin).
  - intros t f fs g x _ _ _ Hin. exact (single_rows_positive _ _ Hin).
  - intros t f fs x _ _ Hin. apply Rgt_not_eq, (single_rows_positive _ _ Hin).
Qed.

Lemma plain_total : total_custom plain_custom.
Proof. intros f params env states. unfold plain_custom. destruct (dget params "q"), (dget env "inc"); eauto. Qed.

Lemma plain_differentiable : differentiable_transitions plain_custom single_model.
Proof.
  intros f fs [E|[E|[]]]; injection E as <- <-; cbn [fs_transition]; [discriminate|].
  intros x params env states Hp He _.
  destruct (Hp "q"%string ltac:(right; left; reflexivity)) as (g & Eg & Dg).
  destruct (He "inc"%string ltac:(right; right; left; reflexivity)) as (h & Eh & Dh).
  eapply ex_derive_ext; [|exact (sm_mult g h x Dg Dh)].
  intros y. unfold plain_custom. now rewrite Eg, Eh.
Qed.

Example C99_nonvacuous : forall nan neg_inf, exists mi out,
  correct_qr gram_schmidt /\ total_custom plain_custom /\ differentiable_transitions plain_custom single_model /\
  correct_jax true_gradient (fun _ => Some true_gradient) /\
  data_setting single_model single_p 3 (real_frame ex_df) ex_ids ex_lv /\
  good_names single_model /\ clean_anchoring single_model /\
  0 <= Q2R (o_sigma_points_scale (p_options single_p)) /\
  get_maximization_inputs gram_schmidt nan (model_tfunc nan neg_inf plain_custom single_model (p_labels single_p))
    true_gradient (fun _ => Some true_gradient) single_model (real_frame ex_df) "jacrev" = Ok mi /\
  NoDup (map fst single_rows) /\ mi_loglike mi single_rows = Ok out /\ interior single_model single_rows /\
  (40 < length single_rows)%nat /\ ex_ids <> [].
Proof.
  intros nan neg_inf. destruct single_example as (ar & ps & H).
  pose proof H as (Hds & Hg & Har & Hlen & _).
  set (tfunc := model_tfunc nan neg_inf plain_custom single_model (p_labels single_p)).
  assert (Hidx : NoDup (params_index_of single_p)).
  { apply (idx_labels_unique single_model single_p); [apply Hds|exact Hg|exact single_model_accepted]. }
  destruct (likelihood_events gram_schmidt nan tfunc _ _ _ _ _ _ _ _ _ false H) as (recs & out & _ & _ & E & _);
    [apply shapes_fit_spec; right; right; reflexivity|].
  assert (exists mi, get_maximization_inputs gram_schmidt nan tfunc true_gradient (fun _ => Some true_gradient) single_model (real_frame ex_df) "jacrev" = Ok mi /\
    (forall params, mi_loglike mi params
     = do v <- get_params_vec params (params_index_of single_p); log_likelihood gram_schmidt nan tfunc single_p ar false v)) as (mi & Emi & EL).
  { eexists. split.
    - unfold get_maximization_inputs. rewrite single_model_accepted. cbn [rbind]. rewrite Har. cbn [rbind]. reflexivity.
    - reflexivity. }
  exists mi, out. split; [exact gram_schmidt_correct|]. split; [exact plain_total|].
  split; [exact plain_differentiable|]. split; [exact true_jax|]. split; [exact Hds|]. split; [exact Hg|].
  split; [exact small_model_clean|]. split.
  { change (o_sigma_points_scale (p_options single_p)) with 2%Q. unfold Q2R. simpl. lra. }
  split; [exact Emi|]. split; [|split].
  - unfold single_rows. rewrite NoDup_map_fst_combine by (symmetry; exact Hlen). exact Hidx.
  - rewrite EL. unfold single_rows. rewrite (get_params_vec_self _ _ Hlen). cbn [rbind]. exact E.
  - split; [exact single_interior|]. split; [apply Nat.ltb_lt; vm_compute; reflexivity|discriminate].
Qed.

(** robust_translog is excluded for a reason: with the coefficients of the identity it has
    no derivative where the state reaches the bound of the clipping. *)
Theorem C99_robust_translog_refuted : exists (params : list R) (bound : R),
  (forall y, exists r, tf_robust_translog [y] params = Ok r) /\
  ~ ex_derive (fun y : R => match tf_robust_translog [y] params with Ok r => r | Err _ => 0 end) bound.
Proof.
  exists [1; 0; 0], clip_bound.
  assert (Ev : forall y, tf_robust_translog [y] [1; 0; 0] = Ok (clip y)).
  { intros y. unfold tf_robust_translog, tf_translog. cbn. f_equal. ring. }
  split; [intros y; eauto|]. intros [d Hd].
  assert (Hd' : is_derive clip clip_bound (d : R)).
  { eapply is_derive_ext; [|exact Hd]. intros y. cbv beta. now rewrite Ev. }
  apply is_derive_Reals in Hd'. destruct (Hd' (/ 2) ltac:(lra)) as [delta Hdelta].
  assert (HB : 1 <= clip_bound) by (unfold clip_bound; apply IZR_le; lia).
  assert (H0 : 0 < delta) by apply cond_pos.
  set (h := Rmin (delta / 2) 1).
  assert (Hh : 0 < h <= 1 /\ h < delta).
  { unfold h. pose proof (Rmin_l (delta / 2) 1). pose proof (Rmin_r (delta / 2) 1).
    assert (0 < Rmin (delta / 2) 1) by (apply Rmin_glb_lt; lra). lra. }
  assert (E0 : clip clip_bound = clip_bound).
  { unfold clip. rewrite Rmax_left by lra. apply Rmin_left. lra. }
  assert (E1 : clip (clip_bound + h) = clip_bound).
  { unfold clip. rewrite Rmax_left by lra. apply Rmin_right. lra. }
  assert (E2 : clip (clip_bound + - h) = clip_bound - h).
  { unfold clip. rewrite Rmax_left by lra. rewrite Rmin_left by lra. ring. }
  pose proof (Hdelta h ltac:(lra) ltac:(rewrite Rabs_pos_eq; lra)) as A.
  pose proof (Hdelta (- h) ltac:(lra) ltac:(rewrite Rabs_Ropp, Rabs_pos_eq; lra)) as B.
  rewrite E1, E0 in A. rewrite E2, E0 in B.
  replace ((clip_bound - clip_bound) / h - d) with (- d) in A by (field; lra).
  replace ((clip_bound - h - clip_bound) / - h - d) with (1 - d) in B by (field; lra).
  apply Rabs_def2 in A, B. lra.
Qed.
Print Assumptions C99_robust_translog_refuted.
