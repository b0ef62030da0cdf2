(** Properties C09 - C13: how the parameter vector is read. *)
Require Import String Ascii Arith ZArith QArith Bool List Lia Permutation.
From Verif Require Import PyBase ListFacts StringFacts ModelSpec ProcessModel CheckModel SpecModel
  ProcessModelFacts AcceptFacts ParamsIndex SpecIndex IndexFacts SpecFacts ParseParams ParamsVec
  SpecParse ParseFacts AnchorFacts ExampleModels PropsSpec.
Import ListNotations.
Open Scope string_scope.
Open Scope list_scope.
Open Scope nat_scope.

Lemma equations_keys md p n :
  wf_dicts md -> process_model md = Ok p -> has_n_periods md n ->
  map u_key (p_update p) = equations md n.
Proof.
  intros Hwf Hp Hn. destruct (process_update_table md p Hwf Hp) as [-> Hn'].
  rewrite (has_n_periods_fun md _ _ Hn' Hn), table_keys, events_keys. unfold equations.
  generalize (written_equations md n) as l. induction l as [|x l IH]; [reflexivity|].
  cbn [first_appearances]. rewrite IH.
  rewrite (filter_ext _ (fun y => if equation_eq_dec x y then false else true)); [reflexivity|].
  intros y. destruct (key_eq_dec x y), (equation_eq_dec x y); congruence.
Qed.

Lemma idx_NoDup md p : wf_dicts md -> good_names md -> process_model md = Ok p -> NoDup (params_index_of p).
Proof. apply (C07_index_unique_partial md). Qed.

(** Everything that is known about a successful parse. *)
Section Parse.
  Variable A : Type.
  Variables (zero one : A) (flog : A -> A).
  Variables (md : model_dict) (p : processed) (n n_obs : nat) (vec : list A).
  Hypothesis Hwf : wf_dicts md.
  Hypothesis Hunique : NoDup (params_index_of p).
  Hypothesis Hp : process_model md = Ok p.
  Hypothesis Hn : has_n_periods md n.
  Hypothesis Hlen : length vec = length (params_index_of p).
  Let idx := params_index_of p.
  Let val := val_of zero idx vec.

  Lemma vec_val : vec = map val idx.
  Proof. apply val_of_map; [exact Hunique|exact Hlen]. Qed.

  Lemma val_labelled lb : is_param md lb -> labelled idx vec lb (val lb).
  Proof.
    intros H. rewrite vec_val at 1. apply labelled_map. now apply (In_params_index md p).
  Qed.

  Lemma n_eq : n_periods (p_dims p) = n.
  Proof. apply (has_n_periods_fun md); [apply (p_dims_eq md p Hp)|exact Hn]. Qed.

  Definition the_scaling : result (list (list A)) :=
    get_anchoring_scaling_factors one
      (map (fun r => map (fun f => if u_flag r f
             then val (CLoadings, u_period r, u_var r, f) else zero) (latent_of md)) (p_update p))
      (create_parsing_info idx (p_update p) (p_labels p) (p_anch p)) (p_dims p).

  Definition the_constants : result (list (list A)) :=
    get_anchoring_constants zero
      (map (fun r => map (fun c => val (CControls, u_period r, u_var r, c))
                         ("constant" :: controls_of md)) (p_update p))
      (create_parsing_info idx (p_update p) (p_labels p) (p_anch p)) (p_dims p).

  Definition the_parsed (scaling constants : list (list A)) : parsed A :=
    mk_parsed
      (repeat (map (fun e => map (fun f => val (CInitStates, 0, mixture_name e, f))
                                    (latent_of md)) (range (n_mixtures_of md))) n_obs)
      (repeat (map (fun e =>
            map (fun r => map (fun c =>
                if r <=? c
                then val (CInitChol, 0, mixture_name e,
                          cov_name (nth c (latent_of md) "") (nth r (latent_of md) ""))
                else zero) (seq 0 (length (latent_of md))))
              (seq 0 (length (latent_of md)))) (range (n_mixtures_of md))) n_obs)
      (repeat (map (fun e => flog (val (CMixWeights, 0, mixture_name e, "-")))
                  (range (n_mixtures_of md))) n_obs)
      (map (fun r => map (fun c => val (CControls, u_period r, u_var r, c))
                            ("constant" :: controls_of md)) (p_update p))
      (map (fun r => map (fun f => if u_flag r f
                                      then val (CLoadings, u_period r, u_var r, f) else zero)
                            (latent_of md)) (p_update p))
      (map (fun r => val (CMeasSds, u_period r, u_var r, "-")) (p_update p))
      (map (fun t => map (fun f => val (CShockSds, t, f, "-")) (latent_of md)) (seq 0 (n - 1)))
      (map (fun ffs => (fst ffs,
            map (fun t => map (fun n => val (CTransition, t, fst ffs, n))
                   (transition_parameters (latent_of md ++ observed_of md)
                      (fs_transition (snd ffs)))) (seq 0 (n - 1)))) (md_factors md))
      scaling constants.

  Lemma parse_for_spec :
    2 <= n -> 1 <= n_mixtures_of md ->
    parse_for zero one flog p vec n_obs
    = rbind the_scaling (fun s => rbind the_constants (fun c => Ok (the_parsed s c))).
  Proof.
    intros H2 Hm.
    replace (parse_for zero one flog p vec n_obs) with (parse_for zero one flog p (map val idx) n_obs)
      by (now rewrite <- vec_val).
    unfold parse_for, parse_params. cbv zeta. unfold idx.
    rewrite (parsed_states A zero val md p Hp). cbn [rbind].
    rewrite (parsed_chols A zero val md p Hp) by lia. cbn [rbind].
    rewrite (parsed_controls A zero val md p Hp). cbn [rbind].
    rewrite (parsed_loadings A zero val md p Hp). cbn [rbind].
    rewrite (parsed_shock_sds A zero val md p Hp). cbn [rbind].
    rewrite (parsed_transition A zero flog val md p Hwf Hp) by (rewrite n_eq; exact H2). cbn [rbind].
    rewrite (parsed_weights A zero flog val md p Hp), (parsed_meas_sds A zero val p), n_eq.
    reflexivity.
  Qed.

  (** A successful parse implies two periods and a mixture element. *)
  Lemma parse_for_needs ps :
    parse_for zero one flog p vec n_obs = Ok ps -> 2 <= n /\ 1 <= n_mixtures_of md.
  Proof.
    unfold parse_for, parse_params. cbv zeta. intros H.
    apply rbind_ok in H. destruct H as [st [_ H]].
    apply rbind_ok in H. destruct H as [ch [Hch H]].
    apply rbind_ok in H. destruct H as [co [_ H]].
    apply rbind_ok in H. destruct H as [lo [_ H]].
    apply rbind_ok in H. destruct H as [sh [_ H]].
    apply rbind_ok in H. destruct H as [tr [Htr _]]. split.
    - unfold get_transition_params in Htr. destruct (p_labels_eq md p Hp) as [El [_ [_ [Ep _]]]].
      rewrite El, Ep in Htr. pose proof (latent_nonempty md p Hp) as Hne.
      destruct (latent_of md) as [|f l]; [congruence|]. cbn [mapM] in Htr.
      apply rbind_ok in Htr. destruct Htr as [y [Hy _]].
      apply rbind_ok in Hy. destruct Hy as [il [_ Hy]].
      apply rbind_ok in Hy. destruct Hy as [rows [Hy _]].
      unfold reshape_rows, range in Hy. rewrite seq_length, n_eq in Hy.
      destruct (Nat.eqb_spec (n - 1) 0); [discriminate|lia].
    - unfold get_initial_upper_chols in Hch. apply rbind_ok in Hch. destruct Hch as [y [Hy _]].
      unfold reshape_rows in Hy. destruct (p_dims_eq md p Hp) as [_ [_ [_ [Em _]]]].
      rewrite Em in Hy. destruct (Nat.eqb_spec (n_mixtures_of md) 0); [discriminate|lia].
  Qed.

  Lemma parse_for_inv ps :
    parse_for zero one flog p vec n_obs = Ok ps ->
    exists s c, the_scaling = Ok s /\ the_constants = Ok c /\ ps = the_parsed s c.
  Proof.
    intros H. destruct (parse_for_needs ps H) as [H2 Hm].
    rewrite (parse_for_spec H2 Hm) in H.
    apply rbind_ok in H. destruct H as [s [Hs H]].
    apply rbind_ok in H. destruct H as [c [Hc H]]. injection H as <-. eauto.
  Qed.

  Lemma row_of_equation i t v :
    nth_error (equations md n) i = Some (t, v) ->
    exists r, nth_error (p_update p) i = Some r /\ In r (p_update p) /\
              u_period r = t /\ u_var r = v /\ is_equation md t v.
  Proof.
    rewrite <- (equations_keys md p n Hwf Hp Hn), nth_error_map.
    destruct (nth_error (p_update p) i) as [r|] eqn:E; [|discriminate].
    simpl. unfold u_key. intros [= <- <-]. apply nth_error_In in E as Hin.
    exists r. repeat split; auto. apply (In_rows_eq md p _ _ Hwf Hp). eauto.
  Qed.
End Parse.

Lemma entry_map {A B C} (g : B -> C -> A) (l : list B) (k : list C) i j b c :
  nth_error l i = Some b -> nth_error k j = Some c ->
  entry (map (fun b => map (g b) k) l) i j (g b c).
Proof.
  intros Hb Hc. exists (map (g b) k). split.
  - now apply (map_nth_error (fun b => map (g b) k)).
  - now apply map_nth_error.
Qed.

Lemma shape_map {A B C} (g : B -> C -> A) (l : list B) (k : list C) :
  shape (map (fun b => map (g b) k) l) (length l) (length k).
Proof.
  split; [apply map_length|]. intros row H. apply in_map_iff in H.
  destruct H as [b [<- _]]. apply map_length.
Qed.

(** ** C09 *)

(** The values passed to the filter for the [i]-th equation are the parameters
    labelled with its period and variable; loadings that are not part of the model
    are zero; the shock standard deviations of the [t]-th transition carry the
    labels of period [t]. *)
Theorem C09_measurement_parameters :
  forall (A : Type) (zero one : A) flog md p n n_obs vec ps,
  wf_dicts md -> NoDup (params_index_of p) -> process_model md = Ok p -> has_n_periods md n ->
  length vec = length (params_index_of p) ->
  parse_for zero one flog p vec n_obs = Ok ps ->
  shape (ps_loadings ps) (length (equations md n)) (length (latent_of md)) /\
  shape (ps_controls ps) (length (equations md n)) (S (length (controls_of md))) /\
  length (ps_meas_sds ps) = length (equations md n) /\
  shape (ps_shock_sds ps) (n - 1) (length (latent_of md)) /\
  (forall i t v, nth_error (equations md n) i = Some (t, v) ->
    (forall j f, nth_error (latent_of md) j = Some f ->
       exists x, entry (ps_loadings ps) i j x /\
         (involves md t f v -> labelled (params_index_of p) vec (CLoadings, t, v, f) x) /\
         (~ involves md t f v -> x = zero)) /\
    (forall j c, nth_error ("constant" :: controls_of md) j = Some c ->
       exists x, entry (ps_controls ps) i j x /\
         labelled (params_index_of p) vec (CControls, t, v, c) x) /\
    (exists x, nth_error (ps_meas_sds ps) i = Some x /\
         labelled (params_index_of p) vec (CMeasSds, t, v, "-") x)) /\
  (forall t j f, t + 1 < n -> nth_error (latent_of md) j = Some f ->
     exists x, entry (ps_shock_sds ps) t j x /\
       labelled (params_index_of p) vec (CShockSds, t, f, "-") x).
Proof.
  intros A zero one flog md p n n_obs vec ps Hwf Hu Hp Hn Hlen H.
  destruct (parse_for_inv A zero one flog md p n n_obs vec Hwf Hu Hp Hn Hlen ps H)
    as [s [c [_ [_ ->]]]].
  unfold the_parsed. cbn [ps_loadings ps_controls ps_meas_sds ps_shock_sds].
  set (val := val_of zero (params_index_of p) vec).
  assert (length (equations md n) = length (p_update p)) as El.
  { rewrite <- (equations_keys md p n Hwf Hp Hn). apply map_length. }
  rewrite El. split; [|split; [|split; [|split; [|split]]]].
  - apply (shape_map (fun r f => if u_flag r f
                                 then val (CLoadings, u_period r, u_var r, f) else zero)).
  - apply (shape_map (fun r c => val (CControls, u_period r, u_var r, c)) _
             ("constant" :: controls_of md)).
  - apply map_length.
  - rewrite <- (seq_length (n - 1) 0) at 2. apply (shape_map (fun t f => val (CShockSds, t, f, "-"))).
  - intros i t v Hi.
    destruct (row_of_equation md p n Hwf Hp Hn i t v Hi) as [r [Hr [Hin [Ht [Hv Heq]]]]].
    split; [|split].
    + intros j f Hj. eexists. split.
      { apply (entry_map (fun r f => if u_flag r f
              then val (CLoadings, u_period r, u_var r, f) else zero) _ _ i j r f Hr Hj). }
      cbv beta. pose proof (p_update_flag md p r f Hwf Hp Hin) as Hf. rewrite Ht, Hv in *.
      split.
      * intros Hi'. rewrite (proj2 Hf Hi').
        apply (val_labelled A zero md p vec Hwf Hu Hp Hlen).
        constructor; [exact Hi'|]. now apply nth_error_In in Hj.
      * intros Hi'. destruct (u_flag r f); [|reflexivity]. tauto.
    + intros j c' Hj. eexists. split.
      { apply (entry_map (fun r c => val (CControls, u_period r, u_var r, c)) _ _ i j r c' Hr Hj). }
      cbv beta. rewrite Ht, Hv. apply (val_labelled A zero md p vec Hwf Hu Hp Hlen).
      constructor; [exact Heq|]. apply nth_error_In in Hj. destruct Hj; auto.
    + eexists. split.
      { apply (map_nth_error (fun r => val (CMeasSds, u_period r, u_var r, "-")) i _ Hr). }
      rewrite Ht, Hv. apply (val_labelled A zero md p vec Hwf Hu Hp Hlen). now constructor.
  - intros t j f Ht Hj. eexists. split.
    { apply (entry_map (fun t f => val (CShockSds, t, f, "-")) _ _ t j t f); [|exact Hj].
      apply (nth_error_range (n - 1)). lia. }
    apply (val_labelled A zero md p vec Hwf Hu Hp Hlen).
    apply (par_shock_sd md t f n); auto. now apply nth_error_In in Hj.
Qed.

(** Parsing succeeds for every vector of the right length if there are at least
    two periods and one mixture element and anchoring is set up without conflicts. *)
Theorem C09_parsing_succeeds :
  forall (A : Type) (zero one : A) flog md p n n_obs vec,
  wf_dicts md -> NoDup (params_index_of p) -> process_model md = Ok p -> has_n_periods md n ->
  length vec = length (params_index_of p) -> clean_anchoring md ->
  2 <= n -> 1 <= n_mixtures_of md ->
  exists ps, parse_for zero one flog p vec n_obs = Ok ps.
Proof.
  intros A zero one flog md p n n_obs vec Hwf Hu Hp Hn Hlen Hc H2 Hm.
  rewrite (parse_for_spec A zero one flog md p n n_obs vec Hwf Hu Hp Hn Hlen H2 Hm).
  unfold the_scaling, the_constants.
  rewrite (parsed_scaling md p Hwf Hp Hc A zero one). cbn [rbind].
  rewrite (parsed_constants md p Hwf Hp Hc A zero). cbn [rbind]. eauto.
Qed.

Lemma small_model_clean : clean_anchoring small_model.
Proof.
  split; [|split].
  - simpl. intros f o [[= <- <-]|[[= <- <-]|[]]]; simpl; tauto.
  - simpl. repeat constructor; simpl; intuition discriminate.
  - intros t f o g Ho [fs [ms [Hin [Hms Hv]]]]. simpl in Ho.
    simpl in Hin. destruct Hin as [[= <- <-]|[[= <- <-]|[]]]; simpl in Hms;
    (destruct t as [|[|[|t]]]; simpl in Hms; try discriminate;
     try (now destruct t); injection Hms as <-);
    destruct Ho as [[= <- <-]|[[= <- <-]|[]]]; simpl in Hv; intuition discriminate.
Qed.

Definition small_vec : list nat := seq 100 93.

Definition small_ps : parsed nat :=
  get_ok (parse_for 0 1 (fun x => x) small_p small_vec 2)
    (mk_parsed [] [] [] [] [] [] [] [] [] []).

Lemma small_parse : parse_for 0 1 (fun x => x) small_p small_vec 2 = Ok small_ps.
Proof. vm_compute. reflexivity. Qed.

Example C09_nonvacuous :
  wf_dicts small_model /\ NoDup (params_index_of small_p) /\ process_model small_model = Ok small_p /\
  has_n_periods small_model 3 /\ length small_vec = length (params_index_of small_p) /\
  parse_for 0 1 (fun x => x) small_p small_vec 2 = Ok small_ps /\
  clean_anchoring small_model /\ 2 <= 3 /\ 1 <= n_mixtures_of small_model /\
  nth_error (equations small_model 3) 1 = Some (0, "s") /\
  entry (ps_loadings small_ps) 1 1 128.
Proof.
  split; [exact small_model_wf|]. split; [exact (idx_NoDup _ _ small_model_wf small_model_good_names small_model_accepted)|].
  split; [exact small_model_accepted|]. split; [exact small_model_periods|].
  split; [reflexivity|]. split; [exact small_parse|]. split; [exact small_model_clean|].
  split; [lia|]. split; [apply Nat.leb_le; reflexivity|]. split; [reflexivity|].
  eexists. split; [vm_compute; reflexivity|reflexivity].
Qed.

(** ** C10 *)

(** Every individual starts with the same mixture of normals: the means, the
    log weights and the transposed lower triangular Cholesky factors carry the
    labels of the mixture element. *)
Theorem C10_initial_distribution :
  forall (A : Type) (zero one : A) flog md p n n_obs vec ps,
  wf_dicts md -> NoDup (params_index_of p) -> process_model md = Ok p -> has_n_periods md n ->
  length vec = length (params_index_of p) ->
  parse_for zero one flog p vec n_obs = Ok ps ->
  length (ps_states ps) = n_obs /\ length (ps_upper_chols ps) = n_obs /\
  length (ps_log_weights ps) = n_obs /\
  forall i, i < n_obs ->
  exists states chols weights,
    nth_error (ps_states ps) i = Some states /\
    nth_error (ps_upper_chols ps) i = Some chols /\
    nth_error (ps_log_weights ps) i = Some weights /\
    length states = n_mixtures_of md /\ length chols = n_mixtures_of md /\
    length weights = n_mixtures_of md /\
    forall e, e < n_mixtures_of md ->
      (exists w, nth_error weights e = Some (flog w) /\
         labelled (params_index_of p) vec (CMixWeights, 0, mixture_name e, "-") w) /\
      (exists mean, nth_error states e = Some mean /\ length mean = length (latent_of md) /\
         forall j f, nth_error (latent_of md) j = Some f ->
           exists x, nth_error mean j = Some x /\
             labelled (params_index_of p) vec (CInitStates, 0, mixture_name e, f) x) /\
      (exists chol, nth_error chols e = Some chol /\
         shape chol (length (latent_of md)) (length (latent_of md)) /\
         forall r c fr fc, nth_error (latent_of md) r = Some fr ->
           nth_error (latent_of md) c = Some fc ->
           exists x, entry chol r c x /\
             (r <= c -> labelled (params_index_of p) vec
                          (CInitChol, 0, mixture_name e, cov_name fc fr) x) /\
             (c < r -> x = zero)).
Proof.
  intros A zero one flog md p n n_obs vec ps Hwf Hu Hp Hn Hlen H.
  destruct (parse_for_inv A zero one flog md p n n_obs vec Hwf Hu Hp Hn Hlen ps H)
    as [s [c [_ [_ ->]]]].
  unfold the_parsed. cbn [ps_states ps_upper_chols ps_log_weights].
  set (val := val_of zero (params_index_of p) vec).
  rewrite !repeat_length. repeat split; auto.
  intros i Hi. do 3 eexists.
  assert (forall {X} (x : X), nth_error (repeat x n_obs) i = Some x) as Hrep.
  { intros X x. rewrite (nth_error_nth' _ x) by (rewrite repeat_length; exact Hi).
    now rewrite nth_repeat. }
  split; [apply Hrep|]. split; [apply Hrep|]. split; [apply Hrep|].
  rewrite !map_length. unfold range. rewrite seq_length.
  split; [reflexivity|]. split; [reflexivity|]. split; [reflexivity|].
  intros e He. assert (nth_error (seq 0 (n_mixtures_of md)) e = Some e) as Hr
    by now apply nth_error_range.
  split; [|split].
  - eexists. split.
    { apply (map_nth_error (fun e => flog (val (CMixWeights, 0, mixture_name e, "-"))) _ _ Hr). }
    apply (val_labelled A zero md p vec Hwf Hu Hp Hlen). now constructor.
  - eexists. split.
    { apply (map_nth_error (fun e => map (fun f => val (CInitStates, 0, mixture_name e, f))
               (latent_of md)) _ _ Hr). }
    split; [apply map_length|]. intros j f Hj. eexists. split; [apply (map_nth_error _ _ _ Hj)|].
    apply (val_labelled A zero md p vec Hwf Hu Hp Hlen). constructor; auto.
    now apply nth_error_In in Hj.
  - eexists. split; [apply (map_nth_error _ _ _ Hr)|]. split.
    + pose proof (shape_map (fun r c => if r <=? c then val (CInitChol, 0, mixture_name e,
         cov_name (nth c (latent_of md) "") (nth r (latent_of md) "")) else zero)
         (seq 0 (length (latent_of md))) (seq 0 (length (latent_of md)))) as Hs.
      rewrite seq_length in Hs. exact Hs.
    + intros r c' fr fc Hfr Hfc.
      assert (r < length (latent_of md)) by (apply nth_error_Some; congruence).
      assert (c' < length (latent_of md)) by (apply nth_error_Some; congruence).
      eexists. split.
      { apply (entry_map (fun r c => if r <=? c then val (CInitChol, 0, mixture_name e,
           cov_name (nth c (latent_of md) "") (nth r (latent_of md) "")) else zero)
           _ _ r c' r c'); now apply nth_error_range. }
      cbv beta. split.
      * intros Hle. rewrite (proj2 (Nat.leb_le _ _) Hle).
        rewrite (nth_error_nth _ _ "" Hfr), (nth_error_nth _ _ "" Hfc).
        apply (val_labelled A zero md p vec Hwf Hu Hp Hlen).
        now apply (par_initial_chol md e c' r fc fr).
      * intros Hlt. now rewrite (proj2 (Nat.leb_gt _ _) Hlt).
Qed.

Example C10_nonvacuous :
  wf_dicts small_model /\ NoDup (params_index_of small_p) /\ process_model small_model = Ok small_p /\
  has_n_periods small_model 3 /\ length small_vec = length (params_index_of small_p) /\
  parse_for 0 1 (fun x => x) small_p small_vec 2 = Ok small_ps /\
  n_mixtures_of small_model = 2 /\
  ps_upper_chols small_ps = repeat [[[163; 164]; [0; 165]]; [[166; 167]; [0; 168]]] 2.
Proof.
  split; [exact small_model_wf|]. split; [exact (idx_NoDup _ _ small_model_wf small_model_good_names small_model_accepted)|].
  split; [exact small_model_accepted|]. split; [exact small_model_periods|].
  split; [reflexivity|]. split; [exact small_parse|]. split; reflexivity.
Qed.

(** ** C11 *)

(** The transition parameters of each factor and period are read from their labels. *)
Theorem C11_transition_parameters :
  forall (A : Type) (zero one : A) flog md p n n_obs vec ps,
  wf_dicts md -> NoDup (params_index_of p) -> process_model md = Ok p -> has_n_periods md n ->
  length vec = length (params_index_of p) ->
  parse_for zero one flog p vec n_obs = Ok ps ->
  map fst (ps_transition ps) = latent_of md /\
  forall f fs, In (f, fs) (md_factors md) ->
  exists coeffs, dget (ps_transition ps) f = Some coeffs /\
    shape coeffs (n - 1)
      (length (transition_parameters (latent_of md ++ observed_of md) (fs_transition fs))) /\
    forall t k name, t + 1 < n ->
      nth_error (transition_parameters (latent_of md ++ observed_of md) (fs_transition fs)) k
        = Some name ->
      exists x, entry coeffs t k x /\
        labelled (params_index_of p) vec (CTransition, t, f, name) x.
Proof.
  intros A zero one flog md p n n_obs vec ps Hwf Hu Hp Hn Hlen H.
  destruct (parse_for_inv A zero one flog md p n n_obs vec Hwf Hu Hp Hn Hlen ps H)
    as [s [c [_ [_ ->]]]].
  unfold the_parsed. cbn [ps_transition]. set (val := val_of zero (params_index_of p) vec).
  split; [rewrite map_map; reflexivity|].
  intros f fs Hin. eexists. split.
  - apply In_dget.
    + unfold dkeys. rewrite map_map. apply Hwf.
    + apply in_map_iff. exists (f, fs). split; [reflexivity|exact Hin].
  - cbn [snd]. split.
    + rewrite <- (seq_length (n - 1) 0) at 2.
      apply (shape_map (fun t name => val (CTransition, t, f, name))).
    + intros t k name Ht Hk. eexists. split.
      { apply (entry_map (fun t name => val (CTransition, t, f, name)) _ _ t k t name);
          [apply nth_error_range; lia|exact Hk]. }
      apply (val_labelled A zero md p vec Hwf Hu Hp Hlen).
      eapply par_transition; eauto. now apply nth_error_In in Hk.
Qed.

Example C11_nonvacuous :
  wf_dicts small_model /\ NoDup (params_index_of small_p) /\ process_model small_model = Ok small_p /\
  has_n_periods small_model 3 /\ length small_vec = length (params_index_of small_p) /\
  parse_for 0 1 (fun x => x) small_p small_vec 2 = Ok small_ps /\
  dget (ps_transition small_ps) "soc" = Some [[189; 190]; [191; 192]].
Proof.
  split; [exact small_model_wf|]. split; [exact (idx_NoDup _ _ small_model_wf small_model_good_names small_model_accepted)|].
  split; [exact small_model_accepted|]. split; [exact small_model_periods|].
  split; [reflexivity|]. split; [exact small_parse|]. reflexivity.
Qed.

(** ** C12 *)

(** Proved part: if the anchored factors are listed in the order of the latent
    factors, the scaling factor and the constant used for a factor are the
    loading and the intercept of its own anchoring equation; factors that are not
    anchored get 1 and 0. Missing: other orders, see [C12_refuted]. *)
Theorem C12_anchoring_factors_partial :
  forall (A : Type) (zero one : A) flog md p n n_obs vec ps,
  wf_dicts md -> good_names md -> process_model md = Ok p -> has_n_periods md n ->
  length vec = length (params_index_of p) ->
  parse_for zero one flog p vec n_obs = Ok ps ->
  clean_anchoring md -> anchored_in_order md ->
  shape (ps_scaling ps) n (length (latent_of md ++ observed_of md)) /\
  shape (ps_constants ps) n (length (latent_of md ++ observed_of md)) /\
  forall t j f, t < n -> nth_error (latent_of md ++ observed_of md) j = Some f ->
  exists x c, entry (ps_scaling ps) t j x /\ entry (ps_constants ps) t j c /\
    (forall o, anchored md f o ->
       labelled (params_index_of p) vec (CLoadings, t, (o ++ "_" ++ f)%string, f) x) /\
    (forall o, anchored md f o -> ignores_constant md = false ->
       labelled (params_index_of p) vec (CControls, t, (o ++ "_" ++ f)%string, "constant") c) /\
    ((forall o, ~ anchored md f o) -> x = one) /\
    ((forall o, ~ anchored md f o) \/ ignores_constant md = true -> c = zero).
Proof.
  intros A zero one flog md p n n_obs vec ps Hwf Hg Hp Hn Hlen H Hc Ho.
  destruct (parse_for_inv A zero one flog md p n n_obs vec Hwf (idx_NoDup md p Hwf Hg Hp) Hp Hn Hlen ps H)
    as [s [c [Hs [Hk ->]]]]. clear H.
  unfold the_scaling in Hs. rewrite (parsed_scaling md p Hwf Hp Hc A zero one) in Hs.
  injection Hs as Hs. unfold the_constants in Hk.
  rewrite (parsed_constants md p Hwf Hp Hc A zero) in Hk. injection Hk as Hk.
  unfold the_parsed. cbn [ps_scaling ps_constants]. rewrite <- Hs, <- Hk. clear Hs Hk s c.
  set (val := val_of zero (params_index_of p) vec).
  pose proof (n_eq md p n Hp Hn) as En. rewrite En. clear En.
  set (srow := fun t => map (fun f => if is_anchored md f
        then val (CLoadings, t, outcome_name md f, f) else one) (latent_of md)
        ++ repeat one (length (observed_of md))).
  set (crow := fun t => map (fun f => if is_anchored md f && negb (ignores_constant md)
        then val (CControls, t, outcome_name md f, "constant") else zero) (latent_of md)
        ++ repeat zero (length (observed_of md))).
  rewrite (map_ext_in _ srow).
  2:{ intros t _. unfold srow. f_equal.
      apply (mask_set_in_order md Hwf A (fun v f => val (CLoadings, t, v, f)) one Ho). }
  rewrite (map_ext_in (fun t => (if ignores_constant md then _ else _) ++ _) crow).
  2:{ intros t _. unfold crow. f_equal. destruct (ignores_constant md) eqn:Ei.
      - apply map_ext. intros f. now rewrite andb_false_r.
      - rewrite (mask_set_in_order md Hwf A (fun v f => val (CControls, t, v, "constant"))
                   zero Ho).
        apply map_ext. intros f. now rewrite andb_true_r. }
  assert (forall t, length (srow t) = length (latent_of md ++ observed_of md)) as Ls.
  { intros t. unfold srow. now rewrite !app_length, map_length, repeat_length. }
  assert (forall t, length (crow t) = length (latent_of md ++ observed_of md)) as Lc.
  { intros t. unfold crow. now rewrite !app_length, map_length, repeat_length. }
  split; [|split].
  - split; [now rewrite map_length, seq_length|]. intros row Hr. apply in_map_iff in Hr.
    destruct Hr as [t [<- _]]. apply Ls.
  - split; [now rewrite map_length, seq_length|]. intros row Hr. apply in_map_iff in Hr.
    destruct Hr as [t [<- _]]. apply Lc.
  - intros t j f Ht Hj.
    assert (nth_error (seq 0 n) t = Some t) as Hst by (now apply nth_error_range).
    destruct (Nat.lt_ge_cases j (length (latent_of md))) as [Hlt|Hge].
    + rewrite nth_error_app1 in Hj by exact Hlt.
      exists (if is_anchored md f then val (CLoadings, t, outcome_name md f, f) else one),
             (if is_anchored md f && negb (ignores_constant md)
              then val (CControls, t, outcome_name md f, "constant") else zero).
      split; [|split].
      * exists (srow t). split; [now apply map_nth_error|]. unfold srow.
        rewrite nth_error_app1 by (now rewrite map_length).
        now apply (map_nth_error (fun f => if is_anchored md f
          then val (CLoadings, t, outcome_name md f, f) else one)).
      * exists (crow t). split; [now apply map_nth_error|]. unfold crow.
        rewrite nth_error_app1 by (now rewrite map_length).
        now apply (map_nth_error (fun f => if is_anchored md f && negb (ignores_constant md)
          then val (CControls, t, outcome_name md f, "constant") else zero)).
      * assert (forall o, anchored md f o -> is_anchored md f = true /\
                 outcome_name md f = (o ++ "_" ++ f)%string /\
                 involves md t f (o ++ "_" ++ f)%string) as Ha.
        { intros o Hao. pose proof (proj1 (anchored_outcomes md f o) Hao) as Hin.
          split; [|split].
          - apply is_anchored_spec. now apply (in_map fst) in Hin.
          - unfold outcome_name. rewrite (In_dget _ _ _ (outs_keys_NoDup md Hwf) Hin). reflexivity.
          - right. split; [exists n; auto|]. eauto. }
        assert ((forall o, ~ anchored md f o) -> is_anchored md f = false) as Hna.
        { intros Hno. destruct (is_anchored md f) eqn:E; [|reflexivity].
          apply is_anchored_spec in E. apply in_map_iff in E. destruct E as [[g o] [Eg Hin]].
          simpl in Eg. subst g. exfalso. apply (Hno o). now apply anchored_outcomes. }
        repeat split.
        -- intros o Hao. destruct (Ha o Hao) as [-> [-> Hi]].
           apply (val_labelled A zero md p vec Hwf (idx_NoDup md p Hwf Hg Hp) Hp Hlen). constructor; [exact Hi|].
           now apply nth_error_In in Hj.
        -- intros o Hao ->. destruct (Ha o Hao) as [-> [-> Hi]]. simpl.
           apply (val_labelled A zero md p vec Hwf (idx_NoDup md p Hwf Hg Hp) Hp Hlen). constructor; [|now left].
           now exists f.
        -- intros Hno. now rewrite (Hna Hno).
        -- intros [Hno | ->]; [now rewrite (Hna Hno)|]. now rewrite andb_false_r.
    + rewrite nth_error_app2 in Hj by exact Hge.
      assert (j - length (latent_of md) < length (observed_of md)) as Hb
        by (apply nth_error_Some; congruence).
      exists one, zero. split; [|split].
      * exists (srow t). split; [now apply map_nth_error|]. unfold srow.
        rewrite nth_error_app2; rewrite map_length; [|exact Hge].
        rewrite (nth_error_nth' _ one) by (now rewrite repeat_length). now rewrite nth_repeat.
      * exists (crow t). split; [now apply map_nth_error|]. unfold crow.
        rewrite nth_error_app2; rewrite map_length; [|exact Hge].
        rewrite (nth_error_nth' _ zero) by (now rewrite repeat_length). now rewrite nth_repeat.
      * assert (forall o, ~ anchored md f o) as Hno.
        { intros o Hao. apply anchored_outcomes in Hao. destruct Hc as [Hl _].
          apply Hl in Hao. destruct Hg as [Hnd _]. apply nth_error_In in Hj.
          clear -Hnd Hao Hj. revert Hnd Hao Hj. generalize (latent_of md), (observed_of md).
          intros l1 l2 Hnd H1 H2. induction l1 as [|x l1 IH]; [destruct H1|].
          simpl in Hnd. inversion_clear Hnd as [|? ? Hni Hnd']. destruct H1 as [->|H1]; [|auto].
          apply Hni. apply in_or_app. now right. }
        repeat split; auto.
        -- intros o Hao. now apply Hno in Hao.
        -- intros o Hao. now apply Hno in Hao.
Qed.

Lemma small_model_in_order : anchored_in_order small_model.
Proof. reflexivity. Qed.

Example C12_nonvacuous :
  wf_dicts small_model /\ good_names small_model /\ process_model small_model = Ok small_p /\
  has_n_periods small_model 3 /\ length small_vec = length (params_index_of small_p) /\
  parse_for 0 1 (fun x => x) small_p small_vec 2 = Ok small_ps /\
  clean_anchoring small_model /\ anchored_in_order small_model /\
  anchored small_model "soc" "Q2" /\ ignores_constant small_model = false /\
  ps_scaling small_ps = [[130; 131; 1]; [134; 135; 1]; [138; 139; 1]].
Proof.
  split; [exact small_model_wf|]. split; [exact small_model_good_names|].
  split; [exact small_model_accepted|]. split; [exact small_model_periods|].
  split; [reflexivity|]. split; [exact small_parse|].
  split; [exact small_model_clean|]. split; [exact small_model_in_order|].
  split; [|split; reflexivity]. eexists _, _. repeat split. simpl. tauto.
Qed.

(** If the anchored factors are listed in another order, a factor can be scaled by
    the loading of another factor. *)
Definition reversed_model : model_dict :=
  mk_md (md_factors small_model) (md_observed small_model) (md_controls small_model)
    (md_stagemap small_model)
    (Some (mk_anch (Some [("soc", "Q2"); ("cog", "Q1")]) None (Some true) (Some true) None))
    (md_options small_model).

Definition reversed_p : processed := get_ok (process_model reversed_model) small_p.
Definition reversed_ps : parsed nat :=
  get_ok (parse_for 0 1 (fun x => x) reversed_p small_vec 2) small_ps.

Theorem C12_refuted :
  exists md p vec ps t j f o,
    wf_dicts md /\ good_names md /\ process_model md = Ok p /\ clean_anchoring md /\
    length vec = length (params_index_of p) /\
    parse_for 0 1 (fun x => x) p vec 2 = Ok ps /\
    nth_error (latent_of md) j = Some f /\ anchored md f o /\
    forall x, entry (ps_scaling ps) t j x ->
      ~ labelled (params_index_of p) vec (CLoadings, t, (o ++ "_" ++ f)%string, f) x.
Proof.
  exists reversed_model, reversed_p, small_vec, reversed_ps, 0, 0, "cog", "Q1".
  assert (wf_dicts reversed_model) as Hwf.
  { split; [apply small_model_wf|]. intros a o [= <-] [= <-].
    repeat constructor; simpl; intuition discriminate. }
  assert (process_model reversed_model = Ok reversed_p) as Hp by (vm_compute; reflexivity).
  assert (good_names reversed_model) as Hg by exact small_model_good_names.
  split; [exact Hwf|]. split; [exact Hg|]. split; [exact Hp|]. split.
  { destruct small_model_clean as [H1 [H2 H3]]. split; [|split].
    - simpl. intros f o [[= <- <-]|[[= <- <-]|[]]]; simpl; tauto.
    - simpl. repeat constructor; simpl; intuition discriminate.
    - intros t f o g Ho Hm. apply (H3 t f o g); [|exact Hm]. simpl in *. tauto. }
  split; [reflexivity|]. split; [vm_compute; reflexivity|]. split; [reflexivity|].
  split; [eexists _, _; repeat split; simpl; tauto|].
  intros x [row [Hr Hx]] [i [Hi Hv]]. vm_compute in Hr. injection Hr as <-.
  vm_compute in Hx. injection Hx as <-.
  assert (forall k, k < 93 -> nth_error small_vec k = Some (100 + k)) as Hvec.
  { intros k Hk. unfold small_vec. rewrite (nth_error_nth' _ 0) by (rewrite seq_length; exact Hk).
    now rewrite seq_nth. }
  assert (i < 93) as Hlt.
  { change 93 with (length (params_index_of reversed_p)). apply nth_error_Some. congruence. }
  rewrite (Hvec i Hlt) in Hv. injection Hv as Hv.
  assert (i = 30) as -> by lia. vm_compute in Hi. discriminate.
Qed.

(** ** C13 *)

Lemma label_eqb_spec a b : label_eqb a b = true <-> a = b.
Proof.
  unfold label_eqb. rewrite !andb_true_iff, cat_eqb_spec, Nat.eqb_eq, !String.eqb_eq. split.
  - destruct a as [[[c1 t1] a1] b1], b as [[[c2 t2] a2] b2].
    unfold lb_cat, lb_period, lb_name1, lb_name2. simpl. intros [[[-> ->] ->] ->]. reflexivity.
  - intros ->. auto.
Qed.

Lemma label_mem_In lb l : label_mem lb l = true <-> In lb l.
Proof.
  unfold label_mem. rewrite existsb_exists. split.
  - intros [x [Hx E]]. apply label_eqb_spec in E. now subst.
  - intros H. exists lb. split; [exact H|]. now apply label_eqb_spec.
Qed.

Lemma has_dup_NoDup l : has_dup l = false <-> NoDup l.
Proof.
  induction l as [|x l IH]; simpl; [split; [constructor|reflexivity]|].
  rewrite orb_false_iff, IH. split.
  - intros [H1 H2]. constructor; [|exact H2]. intros Hi. apply label_mem_In in Hi. congruence.
  - intros H. inversion_clear H as [|? ? Hni Hnd]. split; [|exact Hnd].
    destruct (label_mem x l) eqn:E; [|reflexivity]. apply label_mem_In in E. contradiction.
Qed.

Lemma row_value_In {A} (rows : list (label * A)) lb x :
  NoDup (map fst rows) -> row_value rows lb = Some x <-> In (lb, x) rows.
Proof.
  induction rows as [|[l y] rows IH]; simpl; intros Hnd; [split; [discriminate|tauto]|].
  inversion_clear Hnd as [|? ? Hni Hnd']. destruct (label_eqb lb l) eqn:E.
  - apply label_eqb_spec in E. subst l. split.
    + intros [= ->]. now left.
    + intros [[= ->]|H]; [reflexivity|]. exfalso. apply Hni. now apply (in_map fst) in H.
  - rewrite (IH Hnd'). split; [now right|]. intros [[= -> ->]|H]; [|exact H].
    assert (label_eqb lb lb = true) by now apply label_eqb_spec. congruence.
Qed.

Lemma labels_eqb_spec a b : labels_eqb a b = true <-> a = b.
Proof.
  revert b. induction a as [|x a IH]; intros [|y b]; simpl; try (split; congruence).
  rewrite andb_true_iff, label_eqb_spec, IH. split; [intros [-> ->]; reflexivity|].
  intros [= -> ->]. auto.
Qed.

Lemma row_value_map_snd {A} (rows : list (label * A)) :
  NoDup (map fst rows) ->
  map (row_value rows) (map fst rows) = map (fun r => Some (snd r)) rows.
Proof.
  intros Hnd. rewrite map_map. apply map_ext_in. intros [lb x] Hin.
  now apply row_value_In.
Qed.

Lemma get_params_vec_ok {A} (params : list (label * A)) target :
  NoDup (map fst params) -> (forall lb, In lb (map fst params) <-> In lb target) ->
  exists vec, get_params_vec params target = Ok vec /\
    map Some vec = map (row_value params) target.
Proof.
  intros Hnd H. unfold get_params_vec.
  assert (forallb (fun lb => label_mem lb target) (map fst params)
           && forallb (fun lb => label_mem lb (map fst params)) target = true) as ->.
  { apply andb_true_iff. rewrite !forallb_forall. split; intros x Hx; apply label_mem_In; now apply H. }
  simpl. destruct (labels_eqb (map fst params) target) eqn:E.
  - apply labels_eqb_spec in E. subst target. exists (map snd params). split; [reflexivity|].
    rewrite (row_value_map_snd params Hnd). apply map_map.
  - rewrite (proj2 (has_dup_NoDup _) Hnd). clear E.
    assert (forall l, incl l target -> exists vec,
      mapM (fun lb => match row_value params lb with Some x => Ok x | None => Err KeyError end) l
        = Ok vec /\ map Some vec = map (row_value params) l) as Hl; [|apply Hl; now intros x].
    induction l as [|lb l IH]; intros Hi; [exists []; split; reflexivity|].
    destruct IH as [vec [Ev Em]]; [intros x Hx; apply Hi; now right|].
    assert (In lb (map fst params)) as Hin by (apply H, Hi; now left).
    apply in_map_iff in Hin. destruct Hin as [[l0 x] [E Hin]]. simpl in E. subst l0.
    apply row_value_In in Hin; [|exact Hnd]. exists (x :: vec). simpl.
    rewrite Hin, Ev. simpl. split; [reflexivity|]. now rewrite Em.
Qed.

Lemma map_Some_inj {A} (l l' : list A) : map Some l = map Some l' -> l = l'.
Proof.
  revert l'. induction l as [|x l IH]; intros [|y l'] H; try discriminate; [reflexivity|].
  simpl in H. injection H as -> H. f_equal. now apply IH.
Qed.

(** The parameter vector read from a params DataFrame does not depend on the order
    of its rows: it contains, for every label of the index, the value of the row
    with that label. *)
Theorem C13_row_order :
  forall (A : Type) (params params' : list (label * A)) target,
  NoDup (map fst params) -> Permutation params params' ->
  get_params_vec params' target = get_params_vec params target.
Proof.
  intros A params params' target Hnd Hperm.
  assert (Permutation (map fst params) (map fst params')) as Hpf by now apply Permutation_map.
  assert (NoDup (map fst params')) as Hnd' by (eapply Permutation_NoDup; eauto).
  assert (forall lb, In lb (map fst params) <-> In lb (map fst params')) as Hiff.
  { intros lb. split; apply Permutation_in; [exact Hpf|now apply Permutation_sym]. }
  assert (forall l, map (row_value params') l = map (row_value params) l) as Hrv.
  { intros l. apply map_ext. intros lb. destruct (row_value params lb) as [x|] eqn:E.
    - apply row_value_In in E; [|exact Hnd]. apply row_value_In; [exact Hnd'|].
      now apply (Permutation_in (l := params)).
    - destruct (row_value params' lb) as [x|] eqn:E'; [|reflexivity].
      apply row_value_In in E'; [|exact Hnd'].
      apply (Permutation_in (l' := params)) in E'; [|now apply Permutation_sym].
      apply row_value_In in E'; [|exact Hnd]. congruence. }
  destruct (forallb (fun lb => label_mem lb target) (map fst params)
            && forallb (fun lb => label_mem lb (map fst params)) target) eqn:E.
  - apply andb_true_iff in E. rewrite !forallb_forall in E. destruct E as [E1 E2].
    assert (forall lb, In lb (map fst params) <-> In lb target) as H1.
    { intros lb. split; intros Hi; [apply E1 in Hi|apply E2 in Hi]; now apply label_mem_In. }
    destruct (get_params_vec_ok params target Hnd H1) as [v [-> Hv]].
    destruct (get_params_vec_ok params' target Hnd') as [v' [-> Hv']].
    { intros lb. rewrite <- Hiff. apply H1. }
    f_equal. apply map_Some_inj. rewrite Hv, Hv'. apply Hrv.
  - unfold get_params_vec. rewrite E.
    assert (forallb (fun lb => label_mem lb target) (map fst params')
            && forallb (fun lb => label_mem lb (map fst params')) target = false) as ->;
      [|reflexivity].
    apply not_true_iff_false in E. apply not_true_iff_false. intros H. apply E.
    apply andb_true_iff in H. rewrite !forallb_forall in H. destruct H as [H1 H2].
    apply andb_true_iff. rewrite !forallb_forall. split; intros x Hx.
    + apply H1. now apply Hiff.
    + apply label_mem_In, Hiff, label_mem_In. now apply H2.
Qed.

(** It is an error exactly if a label is missing or there is an additional one. *)
Theorem C13_errors :
  forall (A : Type) (params : list (label * A)) target,
  NoDup (map fst params) ->
  ((exists vec, get_params_vec params target = Ok vec) <->
   (forall lb, In lb (map fst params) <-> In lb target)) /\
  (forall e, get_params_vec params target = Err e -> e = ValueError) /\
  (forall vec, get_params_vec params target = Ok vec ->
     length vec = length target /\
     forall lb x, In (lb, x) params -> labelled target vec lb x).
Proof.
  intros A params target Hnd.
  assert ((exists vec, get_params_vec params target = Ok vec) ->
          (forall lb, In lb (map fst params) <-> In lb target)) as Hfwd.
  { intros [vec H]. unfold get_params_vec in H.
    destruct (forallb (fun lb => label_mem lb target) (map fst params)
            && forallb (fun lb => label_mem lb (map fst params)) target) eqn:E; [|discriminate].
    apply andb_true_iff in E. rewrite !forallb_forall in E. destruct E as [E1 E2].
    intros lb. split; intros Hi; [apply E1 in Hi|apply E2 in Hi]; now apply label_mem_In. }
  split; [|split].
  - split; [exact Hfwd|]. intros H. destruct (get_params_vec_ok params target Hnd H) as [v [E _]].
    eauto.
  - intros e He.
    destruct (forallb (fun lb => label_mem lb target) (map fst params)
            && forallb (fun lb => label_mem lb (map fst params)) target) eqn:E.
    + apply andb_true_iff in E. rewrite !forallb_forall in E. destruct E as [E1 E2].
      destruct (get_params_vec_ok params target Hnd) as [v [Ev _]]; [|congruence].
      intros lb. split; intros Hi; [apply E1 in Hi|apply E2 in Hi]; now apply label_mem_In.
    + unfold get_params_vec in He. rewrite E in He. simpl in He. congruence.
  - intros vec Hv. pose proof (Hfwd (ex_intro _ vec Hv)) as H.
    destruct (get_params_vec_ok params target Hnd H) as [v [Ev Em]].
    assert (v = vec) as -> by congruence. split.
    + rewrite <- (map_length Some vec), Em. apply map_length.
    + intros lb x Hin. assert (In lb target) as Hlb by (apply H; now apply (in_map fst) in Hin).
      apply In_nth_error in Hlb. destruct Hlb as [i Hi]. exists i. split; [exact Hi|].
      apply (map_nth_error (row_value params)) in Hi. rewrite <- Em in Hi.
      rewrite (proj2 (row_value_In params lb x Hnd) Hin) in Hi.
      rewrite nth_error_map in Hi. destruct (nth_error vec i); simpl in Hi; congruence.
Qed.

Example C13_nonvacuous :
  let params := combine (params_index_of small_p) small_vec in
  NoDup (map fst params) /\ Permutation params (rev params) /\ params <> rev params /\
  get_params_vec (rev params) (params_index_of small_p) = Ok small_vec.
Proof.
  split; [|split; [apply Permutation_rev|split; [|vm_compute; reflexivity]]].
  - apply has_dup_NoDup. vm_compute. reflexivity.
  - vm_compute. discriminate.
Qed.

Print Assumptions C09_measurement_parameters.
Print Assumptions C09_parsing_succeeds.
Print Assumptions C10_initial_distribution.
Print Assumptions C11_transition_parameters.
Print Assumptions C12_anchoring_factors_partial.
Print Assumptions C12_refuted.
Print Assumptions C13_row_order.
Print Assumptions C13_errors.
