(** Simulated data: properties C60, C61, C68. *)
Require Import Reals Qreals String Arith ZArith Bool List Lia Lra Sorted.
From Verif Require Import PyBase ListFacts ModelSpec ProcessModel CheckModel SpecModel ProcessModelFacts
  SpecParse SpecData SpecIndex IndexFacts ParamsIndex ParseParams ParamsVec PropsParse ProcessData RSum Kalman
  SpecKalman Clipping Likelihood SpecLikelihood ScheduleFacts DebugData SpecDebug DebugFacts PropsFiltered
  Simulate SpecSimulate SimulateFacts.
Import ListNotations.
Open Scope string_scope.
Open Scope list_scope.
Open Scope nat_scope.

Lemma reindex_index nan params target rows :
  reindex_params nan params target = Ok rows -> map fst rows = target.
Proof.
  unfold reindex_params. destruct (labels_eqb _ _) eqn:E.
  - intros [= <-]. now apply labels_eqb_spec.
  - destruct (has_dup _); [discriminate|]. intros [= <-]. rewrite map_map. apply map_id.
Qed.

Section PropsSimulate.
  Variable nan : R.
  Variable tfunc : dict (list R) -> vec -> vec.
  Context {G : Type}.
  Variable rnd : random G.

  (** What is done with the simulated tables (simulate_data.py:115-135). *)
  Definition finish (md : model_dict) (rows : list (label * R)) (tables : result (table * table))
    : result simulation :=
    do out <- tables;
    do anchored <- anchor_states_df (snd out) md rows;
    do ranges <- create_state_ranges (snd out) (latent_of md);
    do anchored_ranges <- create_state_ranges anchored (latent_of md);
    Ok (mk_simulation (snd out) ranges anchored anchored_ranges (fst out)).

  Lemma simulate_dataset_eq md p n params n_obs data n_ind controls observed rows ps policies g :
    simulation_setting nan md p n params n_obs data n_ind controls observed rows ps ->
    simulate_dataset nan tfunc rnd md params n_obs data policies g
    = if is_none data && negb (is_nil (observed_of md) && is_nil (controls_of md)) then Err ValueError
      else finish md rows (simulate_from nan tfunc rnd p n_ind ps controls observed policies g).
  Proof.
    intros (_ & _ & Hp & _ & Hdata & Hrows & Hps). unfold simulate_dataset, finish.
    rewrite Hp. cbn [rbind]. destruct (p_labels_eq md p Hp) as (-> & -> & -> & _). cbn [tl].
    unfold simulation_data in Hdata. destruct data as [df|]; cbn [is_none andb].
    - rewrite !andb_false_r. destruct Hdata as (ar & -> & -> & -> & ->). cbn [rbind fst snd].
      rewrite Hrows. cbn [rbind]. rewrite Hps. cbn [rbind]. reflexivity.
    - destruct Hdata as (-> & -> & ->). cbn [is_none rbind fst snd]. rewrite !andb_true_r.
      destruct (is_nil (observed_of md)); cbn [negb andb]; [|reflexivity].
      destruct (is_nil (controls_of md)); cbn [negb]; [|reflexivity].
      rewrite Hrows. cbn [rbind]. rewrite Hps. cbn [rbind]. reflexivity.
  Qed.

  Lemma simulate_dataset_inv md p n params n_obs data n_ind controls observed rows ps policies g out :
    simulation_setting nan md p n params n_obs data n_ind controls observed rows ps ->
    simulate_dataset nan tfunc rnd md params n_obs data policies g = Ok out ->
    simulate_from nan tfunc rnd p n_ind ps controls observed policies g
    = Ok (si_measurements out, si_unanchored out) /\
    anchor_states_df (si_unanchored out) md rows = Ok (si_anchored out) /\
    create_state_ranges (si_unanchored out) (latent_of md) = Ok (si_unanchored_ranges out) /\
    create_state_ranges (si_anchored out) (latent_of md) = Ok (si_anchored_ranges out).
  Proof.
    intros Hset H. rewrite (simulate_dataset_eq _ _ _ _ _ _ _ _ _ _ _ _ _ Hset) in H.
    destruct (_ && _); [discriminate|]. unfold finish in H.
    apply rbind_ok in H as ([obs lat] & Hf & H). cbn [fst snd] in H.
    apply rbind_ok in H as (a & Ha & H). apply rbind_ok in H as (r & Hr & H).
    apply rbind_ok in H as (ar & Har & [= <-]). cbn. auto.
  Qed.

  Section Run.
    Variables (md : model_dict) (p : processed) (n : nat) (params : list (label * R)) (n_obs : option nat).
    Variables (data : option (frame R)) (n_ind : nat) (controls observed : nat -> nat -> nat -> option R).
    Variables (rows : list (label * R)) (ps : parsed R).
    Hypothesis Hset : simulation_setting nan md p n params n_obs data n_ind controls observed rows ps.
    Hypothesis Hres : no_reserved_names md n.

    Lemma rows_length : length (map snd rows) = length (params_index_of p).
    Proof using Hset.
      destruct Hset as (_ & _ & _ & _ & _ & Hr & _). apply reindex_index in Hr. rewrite <- Hr, !map_length. reflexivity.
    Qed.

    Lemma simulation_history policies g obs lat :
      simulate_from nan tfunc rnd p n_ind ps controls observed policies g = Ok (obs, lat) ->
      exists h, valid_history nan tfunc rnd md n n_ind (simulation_inputs ps controls observed)
                  (initial_belief ps) policies g h /\
        shows_states md n n_ind h lat /\
        measured rnd md n n_ind (simulation_inputs ps controls observed) h obs.
    Proof using Hset Hres.
      destruct Hset as (Hwf & Hg & Hp & Hn & _ & _ & Hps).
      exact (simulate_from_history nan tfunc rnd md p n Hwf Hg Hp Hn Hres n_ind (map snd rows) ps controls observed
               policies g rows_length Hps obs lat).
    Qed.
  End Run.
End PropsSimulate.

(** * C61 *)

(** The states in the table of unanchored states follow the model: they start with the
    initial distribution of the filter, the policies of a period are added, the
    transition function with the filter's anchoring yields the next period's states, up
    to a normal shock. The measurements are made from the same states, with the next
    random numbers. The second table of states is the anchored one. *)
Theorem C61_states_follow_model :
  forall nan tfunc (G : Type) (rnd : random G) md p n params n_obs data n_ind controls observed rows ps policies g out,
    simulation_setting nan md p n params n_obs data n_ind controls observed rows ps ->
    no_reserved_names md n ->
    simulate_dataset nan tfunc rnd md params n_obs data policies g = Ok out ->
    let inp := simulation_inputs ps controls observed in
    exists h, valid_history nan tfunc rnd md n n_ind inp (initial_belief ps) policies g h /\
      shows_states md n n_ind h (si_unanchored out) /\
      measured rnd md n n_ind inp h (si_measurements out) /\
      anchor_states_df (si_unanchored out) md rows = Ok (si_anchored out) /\
      create_state_ranges (si_unanchored out) (latent_of md) = Ok (si_unanchored_ranges out) /\
      create_state_ranges (si_anchored out) (latent_of md) = Ok (si_anchored_ranges out).
Proof.
  intros nan tfunc G rnd md p n params n_obs data n_ind controls observed rows ps policies g out Hset Hres H inp.
  destruct (simulate_dataset_inv nan tfunc rnd _ _ _ _ _ _ _ _ _ _ _ _ _ _ Hset H) as (Hf & Ha & Hr & Har).
  destruct (simulation_history nan tfunc rnd md p n params n_obs data n_ind controls observed rows ps Hset Hres
              policies g _ _ Hf) as (h & H1 & H2 & H3).
  exists h. auto 8.
Qed.
Print Assumptions C61_states_follow_model.

(** * C60 *)

(** For each period and individual: a simulated measurement is the prediction of its
    equation for the simulated states (as shown in the table of states) and the controls
    of the individual, plus a component of a normal distribution whose components are
    independent and have the standard deviations of the equations. If a control is
    missing, so is the measurement; so are variables without equation in the period. *)
Theorem C60_measurement_equation :
  forall nan tfunc (G : Type) (rnd : random G) md p n params n_obs data n_ind controls observed rows ps policies g out,
    simulation_setting nan md p n params n_obs data n_ind controls observed rows ps ->
    no_reserved_names md n ->
    simulate_dataset nan tfunc rnd md params n_obs data policies g = Ok out ->
    let inp := simulation_inputs ps controls observed in
    long_form n n_ind (si_measurements out) /\
    (forall c, In c (tb_columns (si_measurements out)) <->
       c = "id" \/ c = "period" \/ exists t, In (t, c) (equations md n)) /\
    forall t, t < n -> exists g',
      let noise := fst (measurement_noise rnd md n n_ind inp t g') in
      forall i, i < n_ind -> exists state : vec,
        (forall j f, nth_error (latent_of md) j = Some f ->
           shows n (si_unanchored out) i t f (CNum (state j))) /\
        (forall j k v, nth_error (period_equations md n t) j = Some k ->
           nth_error (equations md n) k = Some (t, v) ->
           (forall x, predicted md inp k state (controls t i) x ->
              shows n (si_measurements out) i t v (CNum (x + noise i j)%R)) /\
           ((exists c, c < S (length (controls_of md)) /\ controls t i c = None) ->
            shows n (si_measurements out) i t v CNan)) /\
        (forall v, v <> "id" -> v <> "period" -> ~ In (t, v) (equations md n) ->
           shows n (si_measurements out) i t v CNan).
Proof.
  intros nan tfunc G rnd md p n params n_obs data n_ind controls observed rows ps policies g out Hset Hres H inp.
  destruct (C61_states_follow_model nan tfunc G rnd md p n params n_obs data n_ind controls observed rows ps
              policies g out Hset Hres H) as (h & _ & (_ & _ & Hst) & (Hf & Hc & Hm) & _).
  split; [exact Hf|]. split; [exact Hc|]. intros t Ht. exists (hi_measurement_generator h t).
  destruct (Hm t Ht) as [_ Hcells]. intros noise i Hi. exists (hi_states h t i). split.
  - intros j f Hj. now apply Hst.
  - exact (Hcells i Hi).
Qed.
Print Assumptions C60_measurement_equation.

(** If a measurement has no variance, it is exactly what its equation predicts; the
    filter's residual for these states and controls is zero. *)
Theorem C60_no_noise :
  forall nan tfunc (G : Type) (rnd : random G) md p n params n_obs data n_ind controls observed rows ps policies g out,
    simulation_setting nan md p n params n_obs data n_ind controls observed rows ps ->
    no_reserved_names md n -> no_variance_no_noise rnd ->
    simulate_dataset nan tfunc rnd md params n_obs data policies g = Ok out ->
    let inp := simulation_inputs ps controls observed in
    forall t i k v x state,
      t < n -> i < n_ind -> nth_error (equations md n) k = Some (t, v) -> in_sd inp k = 0%R ->
      (forall j f, nth_error (latent_of md) j = Some f ->
         shows n (si_unanchored out) i t f (CNum (state j))) ->
      predicted md inp k state (controls t i) x ->
      shows n (si_measurements out) i t v (CNum x) /\
      forall qr chols logw states values m,
        values i = Some x -> (forall j, j < length (latent_of md) -> states i m j = state j) ->
        up_residuals (kalman_update qr nan (n_mixtures_of md) (length (latent_of md))
          (S (length (controls_of md))) states chols (in_loadings inp k) (in_control_params inp k) (in_sd inp k)
          values (in_controls inp t) logw) i m = Some 0%R.
Proof.
  intros nan tfunc G rnd md p n params n_obs data n_ind controls observed rows ps policies g out Hset Hres Hrnd H inp
    t i k v x state Ht Hi Hk Hsd Hstate Hx.
  destruct (C60_measurement_equation nan tfunc G rnd md p n params n_obs data n_ind controls observed rows ps
              policies g out Hset Hres H) as (_ & _ & Hm).
  destruct (Hm t Ht) as (g' & Hg'). cbn zeta in Hg'. destruct (Hg' i Hi) as (state' & Hst' & Hcell & _).
  assert (Hsame : forall j, j < length (latent_of md) -> state' j = state j).
  { intros j Hj. destruct (nth_error (latent_of md) j) as [f|] eqn:Ef; [|apply nth_error_None in Ef; lia].
    destruct (Hstate j f Ef) as (r1 & A1 & B1). destruct (Hst' j f Ef) as (r2 & A2 & B2).
    rewrite A1 in A2. injection A2 as <-. congruence. }
  assert (Hpos : exists j, nth_error (period_equations md n t) j = Some k).
  { unfold period_equations. apply In_nth_error. apply in_map_iff. exists (k, (t, v)). split; [reflexivity|].
    apply filter_In. split; [now apply In_enumerate|]. simpl. apply Nat.eqb_refl. }
  destruct Hpos as [j Hj].
  destruct Hx as (cs & Hcs & ->).
  set (x := (dot (length (latent_of md)) state (in_loadings inp k)
             + dot (S (length (controls_of md))) cs (in_control_params inp k))%R).
  assert (Hx' : predicted md inp k state' (controls t i) x).
  { exists cs. split; [exact Hcs|]. unfold x. f_equal. unfold dot. apply rsum_ext. intros a Ha.
    now rewrite Hsame. }
  split.
  - destruct (Hcell j k v Hj Hk) as [Hc _]. specialize (Hc x Hx').
    unfold measurement_noise in Hc. rewrite Hrnd, Rplus_0_r in Hc; [exact Hc|exact Hi| |].
    + apply nth_error_Some. congruence.
    + unfold diag. rewrite Nat.eqb_refl, (nth_of_nth_error _ _ _ _ Hj).
      change (in_sd inp k ^ 2 = 0)%R. rewrite Hsd. simpl. ring.
  - intros qr chols logw states values m Hv Hs. unfold kalman_update. cbn [up_residuals].
    rewrite Hv. cbn [isfinite to_number]. f_equal.
    replace (dot (length (latent_of md)) (states i m) (in_loadings inp k))
      with (dot (length (latent_of md)) state (in_loadings inp k)).
    2:{ unfold dot. apply rsum_ext. intros a Ha. now rewrite Hs. }
    replace (dot (S (length (controls_of md))) (fun c => to_number nan (in_controls inp t i c)) (in_control_params inp k))
      with (dot (S (length (controls_of md))) cs (in_control_params inp k)).
    2:{ unfold dot. apply rsum_ext. intros a Ha. change (in_controls inp t i a) with (controls t i a).
        now rewrite (Hcs a Ha). }
    unfold x. ring.
Qed.
Print Assumptions C60_no_noise.

(** * C68 *)

(** The states of the first period are drawn from the mixture that the parameters
    describe: [weights], [means] and lower triangular Cholesky factors [chols] of the
    elements are the parameters of these names, and the covariance matrices are their
    products. *)
Theorem C68_initial_states :
  forall nan tfunc (G : Type) (rnd : random G) md p n params n_obs data n_ind controls observed rows ps policies g out,
    simulation_setting nan md p n params n_obs data n_ind controls observed rows ps ->
    no_reserved_names md n ->
    simulate_dataset nan tfunc rnd md params n_obs data policies g = Ok out ->
    exists weights means chols X g',
      (forall m, m < n_mixtures_of md ->
         exists w, has_value rows (CMixWeights, 0, mixture_name m, "-") w /\ ((0 < w)%R -> weights m = w)) /\
      (forall m j f, m < n_mixtures_of md -> nth_error (latent_of md) j = Some f ->
         has_value rows (CInitStates, 0, mixture_name m, f) (means m j)) /\
      (forall m a b fa fb, m < n_mixtures_of md ->
         nth_error (latent_of md) a = Some fa -> nth_error (latent_of md) b = Some fb ->
         (b <= a -> has_value rows (CInitChol, 0, mixture_name m, cov_name fa fb) (chols m a b)) /\
         (a < b -> chols m a b = 0%R)) /\
      drawn_from_mixture rnd (n_mixtures_of md) (length (latent_of md)) n_ind weights means
        (fun m a b => rsum (length (latent_of md)) (fun c => chols m a c * chols m b c)%R) g X g' /\
      (n = 1 \/ policies_of policies 0 = [] ->
       forall i j f, i < n_ind -> nth_error (latent_of md) j = Some f ->
         shows n (si_unanchored out) i 0 f (CNum (X i j))).
Proof.
  intros nan tfunc G rnd md p n params n_obs data n_ind controls observed rows ps policies g out Hset Hres H.
  destruct (C61_states_follow_model nan tfunc G rnd md p n params n_obs data n_ind controls observed rows ps
              policies g out Hset Hres H) as (h & (Hst & Hev & Hlast & _) & (_ & _ & Hshow) & _).
  pose proof (rows_length nan md p n params n_obs data n_ind controls observed rows ps Hset) as Hlen.
  destruct Hset as (Hwf & Hg & Hp & Hn & Hdata & Hrows & Hps).
  destruct (simulate_dataset_inv nan tfunc rnd md p n params n_obs data n_ind controls observed rows ps policies g out
              (conj Hwf (conj Hg (conj Hp (conj Hn (conj Hdata (conj Hrows Hps)))))) H) as (Hf & _).
  destruct (C10_initial_distribution R 0%R 1%R ln md p n n_ind (map snd rows) ps Hwf (idx_NoDup md p Hwf Hg Hp) Hp Hn Hlen Hps)
    as (L1 & L2 & L3 & Hi).
  assert (H0 : 0 < n_ind).
  { unfold simulate_from in Hf. apply rbind_ok in Hf as (lw & Hlw & _). unfold nth_err in Hlw.
    rewrite <- L3. apply nth_error_Some. destruct (nth_error _ 0); discriminate. }
  destruct (Hi 0 H0) as (st & ch & w & Est & Ech & Ew & Lst & Lch & Lw & He).
  assert (Hval : forall lb y, labelled (params_index_of p) (map snd rows) lb y -> has_value rows lb y).
  { intros lb y (k & A & B). apply reindex_index in Hrows. unfold has_value.
    apply nth_error_In with (n := k). rewrite <- Hrows, nth_error_map in A. rewrite nth_error_map in B.
    destruct (nth_error rows k) as [[lb' y']|]; [|discriminate]. simpl in *. congruence. }
  exists (fun m => exp (be_logw (initial_belief ps) 0 m)), (be_states (initial_belief ps) 0),
    (fun m a b => be_chols (initial_belief ps) 0 m b a), (hi_start h 0), (hi_generator h 0).
  assert (Es : be_states (initial_belief ps) 0 = arr2 st)
    by (cbn [initial_belief be_states]; unfold arr3; now rewrite (nth_of_nth_error _ _ _ [] Est)).
  assert (Ec : be_chols (initial_belief ps) 0 = arr3 ch)
    by (cbn [initial_belief be_chols]; unfold arr4; now rewrite (nth_of_nth_error _ _ _ [] Ech)).
  assert (El : be_logw (initial_belief ps) 0 = arr1 w)
    by (cbn [initial_belief be_logw]; unfold arr2; now rewrite (nth_of_nth_error _ _ _ [] Ew)).
  rewrite Es, Ec, El in *.
  split; [|split; [|split; [|split]]].
  - intros m Hm. destruct (He m Hm) as ((x & Hx & Hl) & _). exists x. split; [now apply Hval|].
    intros Hpos. unfold arr1. rewrite (nth_of_nth_error _ _ _ 0%R Hx). now apply exp_ln.
  - intros m j f Hm Hj. destruct (He m Hm) as (_ & (mean & Hmean & _ & Hx) & _).
    destruct (Hx j f Hj) as (x & Ex & Hl). apply Hval. unfold arr2, arr1.
    rewrite (nth_of_nth_error _ _ _ [] Hmean), (nth_of_nth_error _ _ _ 0%R Ex). exact Hl.
  - intros m a b fa fb Hm Ha Hb. destruct (He m Hm) as (_ & _ & chol & Hchol & _ & Hx).
    destruct (Hx b a fb fa Hb Ha) as (x & (row & Hr & Ex) & Hlow & Hup).
    unfold arr3, arr2, arr1. rewrite (nth_of_nth_error _ _ _ [] Hchol), (nth_of_nth_error _ _ _ [] Hr),
      (nth_of_nth_error _ _ _ 0%R Ex). split; [intros Hle; apply Hval; auto|auto].
  - exact Hst.
  - intros Hnp i j f Hi' Hj.
    destruct (p_dims_eq md p Hp) as (_ & _ & _ & _ & Hn' & Hn1).
    rewrite (has_n_periods_fun md _ _ Hn' Hn) in Hn1.
    assert (Hs : hi_states h 0 = hi_start h 0).
    { destruct (Nat.eq_dec n 1) as [->|Hne]; [exact Hlast|].
      destruct Hnp as [|Hnp]; [contradiction|]. destruct (Hev 0 ltac:(lia)) as (g1 & Hpol & _).
      rewrite Hnp in Hpol. now inversion Hpol. }
    rewrite <- Hs. apply Hshow; auto; lia.
Qed.
Print Assumptions C68_initial_states.
