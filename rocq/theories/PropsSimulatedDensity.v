(** Simulated data come from the density that the likelihood integrates (C110). *)
From Coquelicot Require Import Coquelicot.
Require Import Reals Qreals String Arith ZArith Bool List Lia Lra Sorted.
From Verif Require Import PyBase ListFacts ModelSpec ProcessModel CheckModel SpecModel ProcessModelFacts
  SpecParse SpecIndex IndexFacts ParamsIndex ParseParams ParamsVec ExampleModels ParseFacts PropsSpec PropsParse ProcessData SpecData PropsData
  RSum Kalman SpecKalman KalmanFacts QRWitness Clipping Likelihood SpecLikelihood ScheduleFacts LikelihoodFacts LikelihoodRun PropsKalman
  LikelihoodLocal PropsLikelihood PropsFiltered TransitionFunctions SpecTransition TransitionFacts PropsTransition SpecGaussian GaussianFacts GaussIntegral
  SpecStateSpace StateSpaceFacts SpecModelDensity ModelDensityFacts BayesFacts PropsBayes NormalMoments DensityRun SpecDensity PropsPrefix PropsControls
  PropsRenormalization SpecQuadratic SpecAnchored PropsAnchored PropsDensity DebugData Simulate SpecSimulate PropsSimulate PropsSimulateInputs PropsPolicies
  SpecSimulatedDensity.
Import ListNotations.
Open Scope R_scope.

Lemma place_spec t v eqs : forall s, In (t, v) eqs ->
  exists k, nth_error (map fst (filter (fun ke : nat * (nat * string) => (fst (snd ke) =? t)%nat) (combine (seq s (length eqs)) eqs))) (place t v eqs) = Some (s + k)%nat /\
    nth_error eqs k = Some (t, v).
Proof.
  induction eqs as [|[r w] eqs IH]; intros s Hin; [destruct Hin|].
  cbn [length seq combine filter fst snd place].
  destruct (Nat.eqb_spec r t) as [E|E].
  - destruct (String.eqb_spec w v) as [E'|E'].
    + exists O. cbn [map nth_error fst]. subst. split; [f_equal; lia|reflexivity].
    + destruct Hin as [[= F1 F2]|Hin]; [congruence|].
      destruct (IH (S s) Hin) as (k & A & B). exists (S k). cbn [map nth_error fst]. split; [rewrite A; f_equal; lia|exact B].
  - destruct Hin as [[= F1 F2]|Hin]; [congruence|].
    destruct (IH (S s) Hin) as (k & A & B). exists (S k). cbn [nth_error]. split; [rewrite A; f_equal; lia|exact B].
Qed.

Lemma place_equation md n t v : In (t, v) (equations md n) ->
  exists k, nth_error (period_equations md n t) (place t v (equations md n)) = Some k /\ nth_error (equations md n) k = Some (t, v).
Proof. intros H. destruct (place_spec t v _ O H) as (k & A & B). exists k. split; [exact A|exact B]. Qed.

Lemma no_policies factors (G : Type) (rnd : random G) n_ind X g X' g' : policies_applied rnd factors n_ind [] X g X' g' -> X' = X /\ g' = g.
Proof. intros H. inversion H. now subst. Qed.

(** * C110 *)

(** Take a model with linear production functions, with or without anchoring, simulate it
    without policies and use the simulated values, or some of them, as data for the
    likelihood. For each individual the density that the likelihood integrates over the
    latent factors, at the simulated factors, is the product of the densities of what the
    simulator has drawn for the individual: the initial factors, the shocks to the factors
    in each period and the noise in each measurement. The shocks and the noise are drawn
    with the standard deviations of the densities. *)
Theorem C110_simulated_from_likelihood :
  forall nan neg_inf custom (G : Type) (rnd : random G) md p n params n_obs data0 n_ind controls observed rows ps g out
         df ids lv ar val i id data,
    simulation_setting nan md p n params n_obs data0 n_ind controls observed rows ps ->
    no_reserved_names md n ->
    anchored_setting nan neg_inf custom md p n df ids lv ar (map snd rows) ps val ->
    let tfunc := model_tfunc nan neg_inf custom md (p_labels p) in
    simulate_dataset nan tfunc rnd md params n_obs data0 [] g = Ok out ->
    length ids = n_ind -> nth_error ids i = Some id -> individual_data md n df lv id data ->
    simulated_individual md n controls observed out i data ->
    let inp := simulation_inputs ps controls observed in
    exists h,
      valid_history nan tfunc rnd md n n_ind inp (initial_belief ps) [] g h /\
      shows_states md n n_ind h (si_unanchored out) /\
      measured rnd md n n_ind inp h (si_measurements out) /\
      (forall t j, (t + 1 < n)%nat -> (j < length (latent_of md))%nat ->
         in_shock_sds inp t j = val (CShockSds, t, factor md j, "-"%string)) /\
      (forall k t v, nth_error (equations md n) k = Some (t, v) -> in_sd inp k = val (CMeasSds, t, v, "-"%string)) /\
      forall e eqs t, incl eqs (equations md n) -> (t < n)%nat ->
        element_density nan md val data e eqs t (fun s => hi_states h s i)
        = initial_element md val e (fun s => hi_start h s i)
          * rprod t (fun s => shocks_density md val s (drawn_shock rnd md n_ind inp h i s))
          * prod_list (map (noise_density val data (drawn_noise rnd md n n_ind inp h i)) eqs).
Proof.
  intros nan neg_inf custom G rnd md p n params n_obs data0 n_ind controls observed rows ps g out df ids lv ar val i id data
    Hset Hres HA tfunc Hsim Hlen Hi Hdata (Hm & Hc & Hob) inp.
  destruct (C61_states_follow_model nan tfunc G rnd md p n params n_obs data0 n_ind controls observed rows ps [] g out Hset Hres Hsim)
    as (h & Hv & Hst & Hme & _).
  exists h. split; [exact Hv|]. split; [exact Hst|]. split; [exact Hme|].
  pose proof HA as (Hcustom & H & Hlin & Hev & Hclean & Hord & _ & _ & Hval & Hreg & Hscale).
  assert (Hin : (i < n_ind)%nat) by (rewrite <- Hlen; apply nth_error_Some; congruence).
  assert (SD : forall t j, (t + 1 < n)%nat -> (j < length (latent_of md))%nat ->
    in_shock_sds inp t j = val (CShockSds, t, factor md j, "-"%string)).
  { intros t j Ht Hj. exact (input_shock md p n df ids lv ar (map snd rows) ps val H Hval t j Ht Hj). }
  assert (MD : forall k t v, nth_error (equations md n) k = Some (t, v) -> in_sd inp k = val (CMeasSds, t, v, "-"%string)).
  { intros k t v Hk. exact (input_sd md p n df ids lv ar (map snd rows) ps val H Hval k t v Hk). }
  split; [exact SD|]. split; [exact MD|].
  destruct Hv as (_ & Hnext & Hlast & _).
  assert (ST : forall t, (t < n)%nat -> hi_states h t = hi_start h t).
  { intros t Ht. destruct (Nat.eq_dec t (n - 1)) as [->|Ht']; [exact Hlast|].
    destruct (Hnext t ltac:(lia)) as (g1 & P & _). apply (no_policies _ _ _ _ _ _ _ _ P). }
  intros e eqs t Heqs Ht. unfold element_density. f_equal; [f_equal|].
  - unfold initial_element. rewrite ST by lia. reflexivity.
  - apply rprod_ext. intros s Hs.
    pose proof (a_transition_by_label nan neg_inf custom md p n df ids lv ar (map snd rows) ps val HA i id data Hi Hdata s
      (fun r => hi_states h r i) ltac:(lia)) as E. rewrite E. clear E.
    unfold shock_density, shocks_density. apply rprod_ext. intros j Hj.
    destruct (Hnext s ltac:(lia)) as (g1 & P & Hshock). destruct (no_policies _ _ _ _ _ _ _ _ P) as [_ ->].
    destruct Hshock as [_ Hshock]. specialize (Hshock i j Hin Hj).
    change (in_shock_sds (inputs_of ps ar) s j) with (in_shock_sds inp s j). rewrite (SD s j) by (assumption || lia).
    rewrite <- normal_density_shift. f_equal.
    rewrite (ST (S s)) by lia. replace (S s) with (s + 1)%nat by lia. rewrite Hshock.
    unfold drawn_shock. unfold expected_next.
    assert (T : anchored_transition (tfunc (in_coeffs inp s)) (fun r => in_scaling inp (s + r)%nat) (fun r => in_constants inp (s + r)%nat)
        (all_factors nan (length (latent_of md)) (hi_states h s i) (in_observed inp s i)) j
      = anchored_transition (model_tfunc nan neg_inf custom md (p_labels p) (in_coeffs (inputs_of ps ar) s))
          (fun r => in_scaling (inputs_of ps ar) (s + r)%nat) (fun r => in_constants (inputs_of ps ar) (s + r)%nat)
          (SpecKalman.all_factors (length (latent_of md)) (hi_states h s i) (fun o => to_number nan (in_observed (inputs_of ps ar) s i o))) j).
    { unfold anchored_transition. f_equal. f_equal.
      change (tfunc (in_coeffs inp s)) with (model_tfunc nan neg_inf custom md (p_labels p) (in_coeffs (inputs_of ps ar) s)).
      assert (V : forall k f, nth_error (latent_of md ++ observed_of md) k = Some f ->
        anchored_value nan md val data s (fun r => hi_states h r i) f
        = all_factors nan (length (latent_of md)) (hi_states h s i) (in_observed inp s i) k * in_scaling inp (s + 0) k + in_constants inp (s + 0) k).
      { intros k f Hk. rewrite Nat.add_0_r.
        rewrite (anchored_input nan neg_inf custom md p n df ids lv ar (map snd rows) ps val HA i id data Hi Hdata s _ k f ltac:(lia) Hk).
        f_equal. f_equal. unfold SpecKalman.all_factors, all_factors.
        destruct (k <? length (latent_of md))%nat eqn:Ek; [reflexivity|]. apply Nat.ltb_ge in Ek. f_equal.
        rewrite nth_error_app2 in Hk by exact Ek.
        rewrite (ModelDensityFacts.input_observed md p n df ids lv ar (map snd rows) ps i id data H Hi Hdata s _ f ltac:(lia) Hk).
        apply Hob; [lia|exact Hk]. }
      rewrite (a_transition_linear nan neg_inf custom md p n df ids lv ar (map snd rows) ps val HA s j _ _ ltac:(lia) Hj V).
      symmetry. apply (a_transition_linear nan neg_inf custom md p n df ids lv ar (map snd rows) ps val HA s j _ _ ltac:(lia) Hj).
      intros k f Hk. rewrite Nat.add_0_r.
      exact (anchored_input nan neg_inf custom md p n df ids lv ar (map snd rows) ps val HA i id data Hi Hdata s _ k f ltac:(lia) Hk). }
    unfold inp, tfunc in T |- *. rewrite T. clear T. ring.
  - apply f_equal. apply map_ext_in. intros [s v] Hsv. apply Heqs in Hsv.
    destruct (place_equation md n s v Hsv) as (k & Hpl & Hk).
    assert (Hs : (s < n)%nat) by (eapply equations_period, Hsv).
    unfold noise_density. destruct (data s v) as [y|] eqn:Ey.
    2:{ unfold measurement_equation. now rewrite Ey. }
    rewrite (equation_by_label nan md p n df ids lv ar (map snd rows) ps val i id data H Hval Hi Hdata k s v _ Hk).
    unfold equation_density. rewrite (ModelDensityFacts.input_value md p n df ids lv ar (map snd rows) ps i id data H Hi Hdata k s v Hk), Ey.
    change (in_sd (inputs_of ps ar) k) with (in_sd inp k). rewrite (MD k s v Hk).
    rewrite <- normal_density_shift. f_equal.
    destruct Hme as (_ & _ & Hme). destruct (Hme s Hs) as [_ Hmi]. destruct (Hmi i Hin) as [Hmv _].
    destruct (Hmv _ k v Hpl Hk) as [Hx Hn]. pose proof (Hm s v y Hsv Ey) as Hy.
    assert (Cs : forall c, (c < S (length (controls_of md)))%nat -> in_controls inp s i c = Some (to_number nan (in_controls inp s i c))).
    { intros c Hcl. destruct (in_controls inp s i c) as [z|] eqn:Ez; [reflexivity|].
      exfalso. assert (N : shows n (si_measurements out) i s v CNan) by (apply Hn; exists c; auto).
      pose proof (shows_fun _ _ _ _ _ _ _ Hy N). discriminate. }
    specialize (Hx _ (ex_intro _ (fun c => to_number nan (in_controls inp s i c)) (conj Cs eq_refl))).
    pose proof (shows_fun _ _ _ _ _ _ _ Hy Hx) as E. injection E as E. rewrite E. unfold drawn_noise.
    assert (D : dot (S (length (controls_of md))) (fun c => to_number nan (in_controls (inputs_of ps ar) s i c)) (in_control_params (inputs_of ps ar) k)
      = dot (S (length (controls_of md))) (fun c => to_number nan (in_controls inp s i c)) (in_control_params inp k)).
    { unfold dot. apply rsum_ext. intros c Hcl. f_equal. f_equal.
      rewrite (ModelDensityFacts.input_control md p n df ids lv ar (map snd rows) ps i id data H Hi Hdata s c Hs Hcl). now apply Hc. }
    rewrite D. change (in_loadings (inputs_of ps ar) k) with (in_loadings inp k). unfold inp. cbn [simulation_inputs in_loadings in_controls in_control_params]. ring.
Qed.
Print Assumptions C110_simulated_from_likelihood.

(** All random numbers are one above their mean. *)
Definition above_mean : random unit :=
  mk_random (fun g _ mean _ _ => (fun _ j => mean j + 1, g)) (fun g mean _ _ => (fun _ => mean + 1, g))
    (fun g _ _ _ => Ok (fun _ => O, g)).

Definition sim_rows : list (label * R) := combine (params_index_of out_p) (den_params 0).

Lemma sim_fst : map fst sim_rows = params_index_of out_p.
Proof. apply map_fst_combine. unfold den_params. now rewrite map_length. Qed.
Lemma sim_snd : map snd sim_rows = den_params 0.
Proof. apply map_snd_combine. unfold den_params. now rewrite map_length. Qed.

Lemma sim_reserved : no_reserved_names out_model 2.
Proof.
  intros c Hc. split.
  - destruct Hc as [-> | ->]; simpl; intuition discriminate.
  - intros t Hin. rewrite out_equations in Hin. destruct Hc as [-> | ->];
      destruct Hin as [E|[E|[E|[E|[]]]]]; discriminate E.
Qed.

(** The example of C107 and C108: a latent factor "cog" that is anchored with the outcome q,
    two periods, three individuals. The data of the first individual are the simulated
    value of q in the first period; all other values are missing. *)
Example C110_nonvacuous : forall nan neg_inf custom, total_custom custom -> exists md p n n_ind controls observed rows ps out
    df ids lv ar val i id data y,
  simulation_setting nan md p n (rev rows) (Some n_ind) None n_ind controls observed rows ps /\
  no_reserved_names md n /\
  anchored_setting nan neg_inf custom md p n df ids lv ar (map snd rows) ps val /\
  simulate_dataset nan (model_tfunc nan neg_inf custom md (p_labels p)) above_mean md (rev rows) (Some n_ind) None [] tt = Ok out /\
  length ids = n_ind /\ nth_error ids i = Some id /\ individual_data md n df lv id data /\
  simulated_individual md n controls observed out i data /\
  In (O, "q_cog"%string) (equations md n) /\ data O "q_cog"%string = Some y.
Proof.
  intros nan neg_inf custom Hc. destruct (den_likelihood 0) as [ps H].
  pose proof (H 0) as ((Hwf & Hp & Hn & _) & Hg & _ & Hl & Hps).
  assert (Hset : simulation_setting nan out_model out_p 2 (rev sim_rows) (Some 3%nat) None 3 (fun _ _ _ => Some 1) (fun _ _ _ => None) sim_rows ps).
  { split; [exact Hwf|]. split; [exact Hg|]. split; [exact Hp|]. split; [exact Hn|]. split; [exact (conj eq_refl (conj eq_refl eq_refl))|]. split.
    - exact (reindex_reversed nan sim_rows _ sim_fst out_NoDup).
    - rewrite sim_snd. exact Hps. }
  assert (Hok : exists out, simulate_dataset nan (model_tfunc nan neg_inf custom out_model (p_labels out_p)) above_mean out_model (rev sim_rows) (Some 3%nat) None [] tt = Ok out).
  { apply (C67_simulation_succeeds nan _ unit above_mean _ _ _ _ _ _ _ _ _ _ _ [] tt Hset sim_reserved out_clean); [now left|].
    split; [intros _; split; reflexivity|]. split; [lia|]. split; [|intros po []].
    intros t Ht. exists "y"%string. destruct t as [|[|t]]; [vm_compute; tauto..|lia]. }
  destruct Hok as [out Hout].
  destruct (C61_states_follow_model nan _ unit above_mean _ _ _ _ _ _ _ _ _ _ _ _ _ _ Hset sim_reserved Hout) as (h & _ & _ & Hm & _).
  destruct Hm as (_ & _ & Hm). destruct (Hm O ltac:(lia)) as [_ Hi]. destruct (Hi O ltac:(lia)) as [Hv _].
  assert (Hin : In (O, "q_cog"%string) (equations out_model 2)) by (rewrite out_equations; right; now left).
  destruct (place_equation out_model 2 O "q_cog" Hin) as (k & Hj & Hk).
  destruct (Hv _ k _ Hj Hk) as [Hx _].
  specialize (Hx _ (ex_intro _ (fun _ => 1) (conj (fun _ _ => eq_refl) eq_refl))).
  set (z := _ + _) in Hx.
  exists out_model, out_p, 2%nat, 3%nat, (fun _ _ _ => Some 1), (fun _ _ _ => None), sim_rows, ps, out, (den_df z), [1; 2; 3]%Z, [0; 1]%Z,
    (den_arrays z), (den_val 0), O, 1%Z, (den_data z), z.
  split; [exact Hset|]. split; [exact sim_reserved|].
  split; [rewrite sim_snd; exact (den_anchored nan neg_inf custom 0 z ps Hc (H z))|].
  split; [exact Hout|]. split; [reflexivity|]. split; [reflexivity|]. split; [intros t x _; apply given_handed|].
  split; [|split; [exact Hin|reflexivity]].
  split; [|split].
  - intros t v y Ht Hy. rewrite out_equations in Ht. destruct Ht as [[= <- <-]|[[= <- <-]|[[= <- <-]|[[= <- <-]|[]]]]];
      [discriminate Hy| |discriminate Hy|discriminate Hy].
    change (den_data z 0 "q_cog") with (Some z) in Hy. injection Hy as <-. exact Hx.
  - intros t c Ht Hcl. destruct c as [|c]; [|cbn in Hcl; lia]. destruct t as [|[|t]]; [reflexivity..|lia].
  - intros t j f _ Hj'. destruct j; discriminate Hj'.
Qed.
