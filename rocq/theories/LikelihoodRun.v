(** The likelihood function as a run of the filter. *)
Require Import Reals Qreals String Arith ZArith Bool List Lia FunctionalExtensionality.
From Verif Require Import PyBase ListFacts ModelSpec ProcessModel CheckModel SpecModel ProcessModelFacts
  SpecParse SpecIndex IndexFacts ParamsIndex ParseParams ParamsVec PropsParse ProcessData SpecData PropsData RSum Kalman Clipping Likelihood
  SpecLikelihood PredictFacts ScheduleFacts LikelihoodFacts.
Import ListNotations.
Open Scope R_scope.

Lemma req_spec x y : req x y = true <-> x = y.
Proof. unfold req. destruct (Req_EM_T x y); split; congruence. Qed.

Section Setting.
  Variable qr : qr_function.
  Variable nan : R.
  Variable tfunc : dict (list R) -> vec -> vec.
  Variables (md : model_dict) (p : processed) (n : nat) (df : frame R) (ids lv : list Z)
    (ar : arrays R) (params : list R) (ps : parsed R) (debug : bool).
  Hypothesis H : likelihood_setting md p n df ids lv ar params ps.

  Let Hwf : wf_dicts md. Proof. apply H. Qed.
  Let Hp : process_model md = Ok p. Proof. apply H. Qed.
  Let Hn : has_n_periods md n. Proof. apply H. Qed.

  Lemma n_periods_eq : n_periods (p_dims p) = n.
  Proof.
    destruct (p_dims_eq md p Hp) as (_ & _ & _ & _ & Hn' & _). exact (has_n_periods_fun md _ _ Hn' Hn).
  Qed.
  Lemma n_ge_1 : (1 <= n)%nat.
  Proof. destruct (p_dims_eq md p Hp) as (_ & _ & _ & _ & _ & Hn'). rewrite n_periods_eq in Hn'. exact Hn'. Qed.

  Lemma ar_shapes : length (ar_meas ar) = length (p_update p) /\ length (ar_controls ar) = n /\
    length (nth 0 (ar_controls ar) []) = length ids.
  Proof.
    destruct H as (Hd & _ & Har & _).
    destruct (C29_arrays_by_label 1 req md p n df ids lv ar req_spec Hd Har)
      as ((H1 & _) & (H2 & H3 & _) & _).
    split; [|split].
    - rewrite H1, (equations_update md p n Hwf Hp Hn). apply map_length.
    - assumption.
    - pose proof n_ge_1. destruct (ar_controls ar) as [|s l]; [simpl in H2; lia|].
      simpl. apply H3. now left.
  Qed.

  Lemma ps_shapes : length (ps_loadings ps) = length (p_update p) /\
    length (ps_controls ps) = length (p_update p) /\ length (ps_meas_sds ps) = length (p_update p).
  Proof.
    destruct H as (_ & Hg & _ & Hl & Hps).
    destruct (C09_measurement_parameters R 0 1 ln md p n (length ids) params ps Hwf (idx_NoDup md p Hwf Hg Hp) Hp Hn Hl Hps)
      as ((H1 & _) & (H2 & _) & H3 & _).
    rewrite H1, H2, H3, (equations_update md p n Hwf Hp Hn), map_length. auto.
  Qed.

  Lemma update_periods r : In r (p_update p) -> (u_period r < n)%nat.
  Proof.
    intros Hr. apply (equations_period md n _ (u_var r)). rewrite (equations_update md p n Hwf Hp Hn).
    apply in_map_iff. exists r. split; [reflexivity|assumption].
  Qed.

  Lemma loop_args_ok :
    loop_args p ps (ar_meas ar) = Ok (map (the_arg n ps ar (p_update p)) (seq 0 (length (p_update p)))).
  Proof.
    unfold loop_args. destruct ps_shapes as (-> & -> & ->), ar_shapes as (-> & _).
    rewrite !Nat.eqb_refl. cbn [andb]. f_equal.
    destruct (p_labels_eq md p Hp) as (_ & _ & _ & -> & _).
    rewrite n_periods_eq, last_range by exact n_ge_1. reflexivity.
  Qed.

  Lemma likelihood_events :
    shapes_fit (length ids) (n_mixtures (p_dims p)) (n_observed (p_dims p)) = true ->
    exists recs out,
      run_model qr nan tfunc p (length ids) ps ar (code_events 0 (purposes (p_update p))) = Ok recs /\
      length recs = length (p_update p) /\
      log_likelihood qr nan tfunc p ar debug params = Ok out /\
      reports (p_options p) (length ids) recs (initial_belief ps) debug out.
  Proof.
    intros Hfit. destruct H as (_ & _ & _ & _ & Hps).
    destruct (scan_run qr nan tfunc (p_dims p) (length ids) n (Q2R (o_sigma_points_scale (p_options p)))
                ps ar debug (p_update p) n_ge_1 (proj1 (proj2 ar_shapes)) update_periods Hfit
                (length (p_update p)) 0 (initial_belief ps) eq_refl) as (ca & recs & Hs & Hr & Hl).
    exists recs. eexists. split; [exact Hr|]. split; [exact Hl|]. split.
    - unfold log_likelihood. destruct ar_shapes as (_ & _ & ->). rewrite Hps. cbn [rbind].
      rewrite loop_args_ok. cbn [rbind].
      change (mk_carry (arr3 (ps_states ps)) (arr4 (ps_upper_chols ps)) (arr2 (ps_log_weights ps)))
        with (carry_of (initial_belief ps)).
      rewrite Hs. cbn [rbind snd]. reflexivity.
    - assert (Hnth : forall k r, nth_error recs k = Some r ->
                nth k (map (iter_of debug) recs) dummy_iter = iter_of debug r).
      { intros k r Hk. apply nth_of_nth_error. now apply map_nth_error. }
      assert (Hsum : forall i, rsum (length (map (iter_of debug) recs))
                (fun k => clip_with (p_options p) (io_loglikes (nth k (map (iter_of debug) recs) dummy_iter) i))
              = contribution_of (p_options p) recs i).
      { intros i. rewrite (rsum_sum_list (map (iter_of debug) recs) dummy_iter
                     (fun x => clip_with (p_options p) (io_loglikes x i))).
        now rewrite map_map. }
      split; [|split; [|split]].
      + cbn [out_value]. rewrite rsum_swap. apply rsum_ext. intros i _. apply Hsum.
      + intros i. cbn [out_contributions]. apply Hsum.
      + intros ->. reflexivity.
      + intros ->. cbn [out_debug]. eexists. split; [reflexivity|]. split; [reflexivity|].
        split; [reflexivity|]. intros k r Hk.
        cbn [do_all_contributions do_residuals do_residual_sds do_filtered_states do_logw].
        rewrite (Hnth k r Hk). repeat split; reflexivity.
  Qed.

  Lemma likelihood_misfits :
    shapes_fit (length ids) (n_mixtures (p_dims p)) (n_observed (p_dims p)) = false ->
    p_update p <> [] ->
    log_likelihood qr nan tfunc p ar debug params = Err ShapeError.
  Proof.
    intros Hfit Hne. destruct H as (_ & _ & _ & _ & Hps). unfold log_likelihood.
    destruct ar_shapes as (_ & _ & ->). rewrite Hps. cbn [rbind]. rewrite loop_args_ok. cbn [rbind].
    destruct (p_update p) as [|r u]; [congruence|]. cbn [length seq map].
    rewrite scan_misfits by assumption. reflexivity.
  Qed.
End Setting.
