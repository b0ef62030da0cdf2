(** The likelihood is a probability density (C108), and its expected logarithm is largest
    for the true parameters (C109). *)
From Coquelicot Require Import Coquelicot.
Require Import Reals Qreals String Arith ZArith Bool List Lia Lra Sorted.
From Verif Require Import PyBase ListFacts ModelSpec ProcessModel CheckModel SpecModel ProcessModelFacts
  SpecParse SpecIndex IndexFacts ParamsIndex ParseParams ParamsVec ExampleModels ParseFacts PropsSpec PropsParse ProcessData SpecData PropsData
  RSum Kalman SpecKalman KalmanFacts QRWitness Clipping Likelihood SpecLikelihood ScheduleFacts LikelihoodFacts LikelihoodRun PropsKalman
  LikelihoodLocal PropsLikelihood PropsFiltered TransitionFunctions SpecTransition TransitionFacts PropsTransition SpecGaussian GaussianFacts GaussIntegral
  SpecStateSpace StateSpaceFacts SpecModelDensity ModelDensityFacts BayesFacts PropsBayes NormalMoments DensityRun SpecDensity PropsPrefix PropsControls
  PropsRenormalization SpecQuadratic SpecAnchored PropsAnchored.
Import ListNotations.
Open Scope R_scope.

Lemma handed_unique md n (df : frame R) lv id t x w w' : handed_over 1 md n df lv id t x w -> handed_over 1 md n df lv id t x w' -> w = w'.
Proof.
  intros [A B] [A' B']. destruct (Classical_Prop.classic (discarded 1 md n df lv id t)) as [D|D].
  - now rewrite A, A'.
  - now rewrite B, B'.
Qed.

(** Models, data sets, parameters and an individual. *)
Definition density_setting (md : model_dict) (p : processed) (n : nat) (dfs : path -> frame R) (ids lv : list Z) (ars : path -> arrays R)
    (params : list R) (ps : parsed R) (i : nat) (id : Z) (observed : nat -> bool) (other : nat -> string -> option R) : Prop :=
  (forall x, likelihood_setting md p n (dfs x) ids lv (ars x) params ps) /\
  proper_parameters md (params_index_of p) params /\
  (observed_of md = [] \/ n_mixtures_of md = 1%nat) /\
  nth_error ids i = Some id /\ measurement_family md n lv id observed other dfs.

Section Setting.
  Variable qr : qr_function.
  Hypothesis Hqr : correct_qr qr.
  Hypothesis Hloc : local_qr qr.
  Variables (nan neg_inf : R) (custom : string -> dict R -> dict R -> list R -> result R).
  Variables (md : model_dict) (p : processed) (n : nat) (dfs : path -> frame R) (ids lv : list Z) (ars : path -> arrays R)
    (params : list R) (ps : parsed R) (i : nat) (id : Z) (observed : nat -> bool) (other : nat -> string -> option R).
  Hypothesis HS : density_setting md p n dfs ids lv ars params ps i id observed other.

  Let x0 : path := fun _ _ => 0.
  Let H x : likelihood_setting md p n (dfs x) ids lv (ars x) params ps. Proof. apply HS. Qed.
  Let Hwf : wf_dicts md. Proof. apply (H x0). Qed.
  Let Hp : process_model md = Ok p. Proof. apply (H x0). Qed.
  Let Hn : has_n_periods md n. Proof. apply (H x0). Qed.
  Let Hg : good_names md. Proof. apply (H x0). Qed.
  Let Hlen : length params = length (params_index_of p). Proof. apply (H x0). Qed.
  Let Hps : parse_for 0 1 ln p params (length ids) = Ok ps. Proof. apply (H x0). Qed.
  Let Hi : nth_error ids i = Some id. Proof. apply HS. Qed.
  Let Hfam : measurement_family md n lv id observed other dfs. Proof. apply HS. Qed.
  Let tf := model_tfunc nan neg_inf custom md (p_labels p).
  Let K := length (equations md n).
  Let obs (k : nat) : bool := (k <? K)%nat && observed k.
  Let inp (x : path) : inputs := inputs_of ps (ars x).

  Lemma d_length : length (p_update p) = K.
  Proof. unfold K. rewrite (equations_update md p n Hwf Hp Hn). now rewrite map_length. Qed.

  Lemma d_values x k : in_values (inp x) k i = if obs k then Some (x k O) else None.
  Proof.
    unfold inp. cbn [inputs_of in_values]. destruct (H x) as (Hd & _ & Har & _).
    destruct (C29_arrays_by_label 1 req md p n (dfs x) ids lv (ars x) req_spec Hd Har) as ((L1 & _ & A) & _).
    unfold obs. destruct (nth_error (equations md n) k) as [[t v]|] eqn:Ek.
    - assert (Hk : (k < K)%nat) by (apply nth_error_Some; congruence). apply Nat.ltb_lt in Hk. rewrite Hk. cbn [andb].
      destruct (A k t v i id Ek Hi) as (w & Ew & Hw). rewrite (oarr1_entry _ _ _ _ Ew).
      exact (handed_unique _ _ _ _ _ _ _ _ _ Hw (proj1 (Hfam x) k t v Ek)).
    - apply nth_error_None in Ek. assert (Hk : (k <? K)%nat = false) by (apply Nat.ltb_ge; exact Ek). rewrite Hk. cbn [andb].
      rewrite nth_overflow by lia. unfold oarr1. now destruct i.
  Qed.

  Lemma d_controls x y t c : (c < n_controls (p_dims p))%nat -> in_controls (inp x) t i c = in_controls (inp y) t i c.
  Proof.
    destruct (p_dims_eq md p Hp) as (_ & _ & Dnc & _). intros Hc.
    assert (E : forall z, in_controls (inp z) t i c = if (t <? n)%nat then other t (nth c ("constant"%string :: controls_of md) ""%string) else None).
    { intros z. unfold inp. cbn [inputs_of in_controls]. destruct (H z) as (Hd & _ & Har & _).
      destruct (C29_arrays_by_label 1 req md p n (dfs z) ids lv (ars z) req_spec Hd Har) as (_ & (L1 & _ & A) & _).
      destruct (Nat.ltb_spec t n) as [Ht|Ht].
      - destruct (nth_error ("constant"%string :: controls_of md) c) as [w|] eqn:Ek.
        2:{ apply nth_error_None in Ek. cbn in Ek. lia. }
        destruct (A t i id c w Ht Hi Ek) as (u & Eu & Hu). rewrite (oarr2_entry _ _ _ _ _ Eu).
        rewrite (nth_error_nth _ _ _ Ek). apply (handed_unique _ _ _ _ _ _ _ _ _ Hu). apply (proj2 (Hfam z) t w Ht).
        apply nth_error_In in Ek. destruct Ek as [<-|Ek]; [now left|]. right. apply in_or_app. now left.
      - rewrite nth_overflow by lia. unfold oarr2, oarr1. destruct i, c; reflexivity. }
    now rewrite !E.
  Qed.

  Lemma d_factors x y t o : (o < n_observed (p_dims p))%nat -> in_observed (inp x) t i o = in_observed (inp y) t i o.
  Proof.
    destruct (p_dims_eq md p Hp) as (_ & Dno & _). intros Ho.
    assert (E : forall z, in_observed (inp z) t i o = if (t <? n)%nat then other t (nth o (observed_of md) ""%string) else None).
    { intros z. unfold inp. cbn [inputs_of in_observed]. destruct (H z) as (Hd & _ & Har & _).
      destruct (C29_arrays_by_label 1 req md p n (dfs z) ids lv (ars z) req_spec Hd Har) as (_ & _ & (L1 & _ & A)).
      destruct (Nat.ltb_spec t n) as [Ht|Ht].
      - destruct (nth_error (observed_of md) o) as [w|] eqn:Ek.
        2:{ apply nth_error_None in Ek. lia. }
        destruct (A t i id o w Ht Hi Ek) as (u & Eu & Hu). rewrite (oarr2_entry _ _ _ _ _ Eu).
        rewrite (nth_error_nth _ _ _ Ek). apply (handed_unique _ _ _ _ _ _ _ _ _ Hu). apply (proj2 (Hfam z) t w Ht).
        right. apply in_or_app. right. eapply nth_error_In, Ek.
      - rewrite nth_overflow by lia. unfold oarr2, oarr1. destruct i, o; reflexivity. }
    now rewrite !E.
  Qed.

  Lemma d_sd x k : (k < K)%nat -> in_sd (inp x) k <> 0.
  Proof.
    intros Hk. destruct (C09_measurement_parameters R 0 1 ln md p n (length ids) params ps Hwf (idx_NoDup md p Hwf Hg Hp) Hp Hn Hlen Hps)
        as (_ & _ & _ & _ & Heq & _).
    destruct (nth_error (equations md n) k) as [[t v]|] eqn:Ek; [|apply nth_error_None in Ek; unfold K in Hk; lia].
    destruct (Heq k t v Ek) as (_ & _ & z & Hz & Hlab).
    unfold inp, inputs_of. cbn [in_sd]. unfold arr1. erewrite nth_error_nth by exact Hz.
    destruct HS as (_ & (Hsd & _) & _). apply Rgt_not_eq. exact (Hsd t v z Hlab).
  Qed.

  Lemma d_weights : rsum (n_mixtures (p_dims p)) (fun m => exp (be_logw (initial_belief ps) i m)) = 1.
  Proof.
    destruct (p_dims_eq md p Hp) as (_ & _ & _ & Dm & _). rewrite Dm. destruct HS as (_ & (_ & w & Hw & Hsum) & _).
    assert (Hil : (i < length ids)%nat) by (apply nth_error_Some; congruence).
    destruct (C10_initial_distribution R 0 1 ln md p n (length ids) params ps Hwf (idx_NoDup md p Hwf Hg Hp) Hp Hn Hlen Hps)
        as (_ & _ & _ & Hinit).
    destruct (Hinit i Hil) as (st & ch & we & _ & _ & Hwe & _ & _ & Lw & He).
    rewrite <- Hsum. apply rsum_ext. intros m Hm. destruct (He m Hm) as ((z & Hz & Hlab) & _).
    destruct (Hw m Hm) as [Hpos Hlab'].
    unfold initial_belief. cbn [be_logw]. unfold arr2, arr1.
    erewrite (nth_error_nth (ps_log_weights ps)) by exact Hwe. erewrite nth_error_nth by exact Hz.
    rewrite (labelled_fun _ _ _ _ _ (idx_NoDup md p Hwf Hg Hp) Hlab Hlab'). now apply exp_ln.
  Qed.

  Lemma d_records x : exists recs out dbg,
    run_model qr nan tf p (length ids) ps (ars x) (code_events 0 (purposes (p_update p))) = Ok recs /\
    log_likelihood qr nan tf p (ars x) true params = Ok out /\ out_debug out = Some dbg /\
    log_density i recs = rsum K (fun k => do_all_contributions dbg k i) /\
    (o_clip_lower (p_options p) = None -> o_clip_upper (p_options p) = None -> log_density i recs = out_contributions out i).
  Proof.
    assert (Hfit : shapes_fit (length ids) (n_mixtures (p_dims p)) (n_observed (p_dims p)) = true).
    { apply shapes_fit_spec. destruct (p_dims_eq md p Hp) as (_ & -> & _ & -> & _).
      destruct HS as (_ & _ & [-> | ->] & _); auto. }
    destruct (likelihood_events qr nan tf md p n (dfs x) ids lv (ars x) params ps true (H x) Hfit) as (recs & out & Er & Hl & Ho & Hr).
    destruct Hr as (_ & Hc & _ & Hd). destruct (Hd eq_refl) as (dbg & Hdbg & _ & _ & Hrec).
    exists recs, out, dbg. split; [exact Er|]. split; [exact Ho|]. split; [exact Hdbg|]. rewrite d_length in Hl. split.
    - unfold log_density. rewrite <- (firstn_all recs). rewrite Hl.
      set (d := mk_record (fun _ => 0) (fun _ _ _ => 0) (fun _ _ => 0) (fun _ _ => None) (fun _ _ => None)).
      rewrite (sum_list_firstn _ d) by lia. apply rsum_ext. intros j Hj.
      destruct (Hrec j (nth j recs d)) as (-> & _); [|reflexivity]. apply nth_error_nth'. lia.
    - intros C1 C2. rewrite Hc. unfold contribution_of, log_density. f_equal. apply map_ext. intros r.
      unfold clip_with. rewrite C1, C2. reflexivity.
  Qed.

  Lemma d_integral ll : reported_log_likelihood qr nan tf md p n ars params i ll ->
    integrates (observed_values md n observed) (fun x => exp (ll x)) (fun _ => 1).
  Proof.
    intros Hll.
    set (recs := fun x => match run_model qr nan tf p (length ids) ps (ars x) (code_events 0 (purposes (p_update p))) with Ok r => r | Err _ => [] end).
    assert (Hrecs : forall x, run_model qr nan tf p (length ids) ps (ars x) (code_events 0 (purposes (p_update p))) = Ok (recs x) /\
                    ll x = log_density i (recs x)).
    { intros x. destruct (d_records x) as (r & out & dbg & Er & Eo & Ed & E1 & _). unfold recs. rewrite Er. split; [reflexivity|].
      destruct (Hll x) as (out' & dbg' & Eo' & Ed' & E' & _). rewrite Eo in Eo'. injection Eo' as <-. rewrite Ed in Ed'. injection Ed' as <-.
      now rewrite E', E1. }
    apply (integrates_ext _ (fun x => exp (log_density i (recs x))) _ (fun _ => 1)); [intros x; now rewrite (proj2 (Hrecs x))|reflexivity|].
    assert (Eo : observed_values md n observed = observed_entries obs 0 (length (purposes (p_update p)))).
    { unfold observed_values, observed_entries. fold K. f_equal. f_equal. unfold purposes. rewrite map_length, d_length.
      apply filter_ext_in. intros k Hk. apply in_seq in Hk. unfold obs.
      assert (E : (k <? K)%nat = true) by (apply Nat.ltb_lt; lia). now rewrite E. }
    rewrite Eo.
    assert (Hids : (1 <= length ids)%nat) by (destruct ids; [destruct i; discriminate|cbn; lia]).
    apply (run_integral qr Hqr Hloc nan tf (length ids) (n_mixtures (p_dims p)) (n_latent (p_dims p)) (n_observed (p_dims p))
      (n_controls (p_dims p)) (Q2R (o_sigma_points_scale (p_options p))) (model_tfunc_local nan neg_inf custom md p Hp)
      (parse_mixtures p params _ ps Hps) Hids inp i obs) with (b := fun _ => initial_belief ps).
    - intros x y. unfold inp. repeat split.
    - exact d_values.
    - exact d_controls.
    - exact d_factors.
    - intros x j Hj. apply d_sd. unfold purposes in Hj. rewrite map_length, d_length in Hj. exact Hj.
    - intros x y _ m Hm. repeat split; intros ?; reflexivity.
    - intros _. exact d_weights.
    - intros x. exact (proj1 (Hrecs x)).
  Qed.
End Setting.

(** * C108 *)

(** For every model, the likelihood of an individual is a probability density of the
    observed values: it is positive and integrates to one over all of them.  The integral
    is taken over the last value first. *)
Theorem C108_likelihood_is_a_density :
  forall qr nan neg_inf custom md p n dfs ids lv ars params ps i id observed other,
    correct_qr qr -> local_qr qr -> total_custom custom ->
    density_setting md p n dfs ids lv ars params ps i id observed other ->
    let tfunc := model_tfunc nan neg_inf custom md (p_labels p) in
    (exists ll, reported_log_likelihood qr nan tfunc md p n ars params i ll) /\
    forall ll, reported_log_likelihood qr nan tfunc md p n ars params i ll ->
      integrates (observed_values md n observed) (fun x => exp (ll x)) (fun _ => 1).
Proof.
  intros qr nan neg_inf custom md p n dfs ids lv ars params ps i id observed other Hqr Hloc _ HS tfunc. split.
  - exists (fun x => match log_likelihood qr nan tfunc p (ars x) true params with
                     | Ok out => match out_debug out with
                                 | Some dbg => rsum (length (equations md n)) (fun k => do_all_contributions dbg k i)
                                 | None => 0
                                 end
                     | Err _ => 0
                     end).
    intros x. destruct (d_records qr nan neg_inf custom md p n dfs ids lv ars params ps i id observed other HS x)
      as (recs & out & dbg & _ & Eo & Ed & E1 & E2).
    exists out, dbg. split; [exact Eo|]. split; [exact Ed|]. unfold tfunc. rewrite Eo, Ed. split; [reflexivity|].
    intros C1 C2. rewrite <- E1. now apply E2.
  - exact (d_integral qr Hqr Hloc nan neg_inf custom md p n dfs ids lv ars params ps i id observed other HS).
Qed.
Print Assumptions C108_likelihood_is_a_density.

(** * C109 *)

(** Among all parameter vectors, and all models of the same measurements, none has a larger
    expected log likelihood than the true one: if the data of an individual are drawn from
    the density of one model and parameter vector, the expectation of its own log
    likelihood is at least the expectation of any other one, provided that both
    expectations exist. *)
Theorem C109_truth_maximizes_expected_likelihood :
  forall qr nan neg_inf custom n dfs ids lv i id observed
         md p ars params ps other custom' md' p' ars' params' ps' other' ll ll' own cross,
    correct_qr qr -> local_qr qr -> total_custom custom -> total_custom custom' ->
    density_setting md p n dfs ids lv ars params ps i id observed other ->
    density_setting md' p' n dfs ids lv ars' params' ps' i id observed other' ->
    equations md' n = equations md n ->
    reported_log_likelihood qr nan (model_tfunc nan neg_inf custom md (p_labels p)) md p n ars params i ll ->
    reported_log_likelihood qr nan (model_tfunc nan neg_inf custom' md' (p_labels p')) md' p' n ars' params' i ll' ->
    integrates (observed_values md n observed) (fun x => exp (ll x) * ll x) (fun _ => own) ->
    integrates (observed_values md n observed) (fun x => exp (ll x) * ll' x) (fun _ => cross) ->
    cross <= own.
Proof.
  intros qr nan neg_inf custom n dfs ids lv i id observed md p ars params ps other custom' md' p' ars' params' ps' other' ll ll' own cross
    Hqr Hloc Hc Hc' H H' Eq Hll Hll' Hown Hcross.
  destruct (C108_likelihood_is_a_density qr nan neg_inf custom md p n dfs ids lv ars params ps i id observed other Hqr Hloc Hc H) as [_ D].
  specialize (D ll Hll).
  destruct (C108_likelihood_is_a_density qr nan neg_inf custom' md' p' n dfs ids lv ars' params' ps' i id observed other' Hqr Hloc Hc' H') as [_ D'].
  specialize (D' ll' Hll'). unfold observed_values in D'. rewrite Eq in D'. fold (observed_values md n observed) in D'.
  (* exp ll * (ll' - ll) <= exp ll' - exp ll *)
  pose proof (integrates_plus _ _ _ _ _ Hcross (integrates_scal _ (-1) _ _ Hown)) as L.
  pose proof (integrates_plus _ _ _ _ _ D' (integrates_scal _ (-1) _ _ D)) as U. cbv beta in L, U.
  assert (B : cross + -1 * own <= 1 + -1 * 1); [|lra].
  refine (integrates_le _ _ _ _ _ _ L U (fun _ _ => 0)). intros x. cbv beta.
  assert (E : ll' x - ll x + 1 <= exp (ll' x - ll x)).
  { destruct (Req_dec (ll' x - ll x) 0) as [->|N]; [rewrite exp_0; lra|]. pose proof (exp_ineq1 _ N). lra. }
  assert (F : exp (ll' x) = exp (ll x) * exp (ll' x - ll x)) by (rewrite <- exp_plus; f_equal; ring).
  pose proof (exp_pos (ll x)). rewrite F. nra.
Qed.
Print Assumptions C109_truth_maximizes_expected_likelihood.

(** ** An example *)

(** The example of C107. The only value of individual 1 is the outcome of the first
    period. *)
Definition den_df (z : R) : frame R :=
  mk_frame ["y"; "q"]%string [1; 2; 3]%Z [0; 1]%Z
    (mk_drow 1 0 (fun c => if String.eqb c "q" then Some z else None) :: mk_drow 1 1 (fun _ => None) :: skipn 2 (fr_rows (real_frame out_df))).

Lemma den_setting z : data_setting out_model out_p 2 (den_df z) [1; 2; 3]%Z [0; 1]%Z.
Proof.
  destruct out_setting as (H1 & H2 & H3 & H4 & _). repeat (split; [assumption|]). split; [|split].
  - intros r Hr. repeat (destruct Hr as [<-|Hr]; [simpl; tauto|]). destruct Hr.
  - split; [repeat constructor|]. intros w. split.
    + intros [<-|[<-|[<-|[]]]].
      * eexists. split; [left; reflexivity|reflexivity].
      * eexists. split; [do 2 right; left; reflexivity|reflexivity].
      * eexists. split; [do 4 right; left; reflexivity|reflexivity].
    + intros (r & Hr & <-). repeat (destruct Hr as [<-|Hr]; [simpl; tauto|]). destruct Hr.
  - split; [repeat constructor|]. intros w. reflexivity.
Qed.

Lemma den_process z : exists ar, process_data 1 req (den_df z) (p_labels out_p) (p_update out_p) (p_anch out_p) true = Ok ar.
Proof.
  pose proof (C28_check_exact 1 req out_model out_p 2 (den_df z) [1; 2; 3]%Z [0; 1]%Z true req_spec (den_setting z)) as [[_ H] _].
  apply H. clear H.
  assert (Av : forall t v, In (t, v) (equations out_model 2) -> available out_model (den_df z) v).
  { intros t v Hv. rewrite out_equations in Hv. destruct Hv as [[= <- <-]|[[= <- <-]|[[= <- <-]|[[= <- <-]|[]]]]];
      [now left; left|right; right; now left|now left; left|right; right; now left]. }
  split; [|split; [|split]].
  - unfold unique_index. cbn. repeat constructor; simpl; intuition discriminate.
  - intros f o Ha. apply anchored_outcomes in Ha. destruct Ha as [[= <- <-]|[]]. right. now left.
  - intros (t & x & pr & Ht & Hx). destruct Hx as [c Hc Hx|v _ Hv Hx|v r _ Hv Hx He Hall|f Hf Hx|f id Hf Hx Hid Hnone].
    + destruct Hc as [<-|[]]. destruct Hx as [Hx|Hx]; [apply Hx; right; now left|]. specialize (Hx 1%Z (or_introl eq_refl)). discriminate Hx.
    + apply Hx, (Av t v Hv).
    + pose proof (Hall 2%Z) as A. pose proof (Hall 3%Z) as B. rewrite out_equations in Hv.
      destruct Hv as [[= <- <-]|[[= <- <-]|[[= <- <-]|[[= <- <-]|[]]]]];
        specialize (A _ (or_intror (or_introl eq_refl)) eq_refl); specialize (B _ (or_intror (or_intror (or_introl eq_refl))) eq_refl);
        pose proof (eq_trans A (eq_sym B)) as C; apply eq_IZR in C; discriminate C.
    + destruct Hf.
    + destruct Hf.
  - exact Av.
Qed.

Definition den_arrays (z : R) : arrays R :=
  get_ok (process_data 1 req (den_df z) (p_labels out_p) (p_update out_p) (p_anch out_p) true) (mk_arrays [] [] []).

(** The parameters of the example of C107 with initial mean mu. *)
Definition den_value (mu : R) (lb : label) : R :=
  match lb with
  | (CInitStates, _, _, _) => mu
  | _ => out_value lb
  end.
Definition den_params (mu : R) : list R := map (den_value mu) (params_index_of out_p).
Definition den_val (mu : R) : label -> R := val_of 0 (params_index_of out_p) (den_params mu).

Lemma den_likelihood mu : exists ps, forall z,
  likelihood_setting out_model out_p 2 (den_df z) [1; 2; 3]%Z [0; 1]%Z (den_arrays z) (den_params mu) ps.
Proof.
  assert (Hl : length (den_params mu) = length (params_index_of out_p)) by apply map_length.
  destruct (den_setting 0) as (Hwf & Hp & Hn & _).
  destruct (C09_parsing_succeeds R 0 1 ln out_model out_p 2 (length [1; 2; 3]%Z) (den_params mu) Hwf out_NoDup Hp Hn Hl out_clean
    (le_n 2) ltac:(apply Nat.leb_le; reflexivity)) as [ps Hps].
  exists ps. intros z. split; [apply den_setting|]. split; [exact out_good_names|]. split; [|split; [exact Hl|exact Hps]].
  unfold den_arrays. destruct (den_process z) as [ar ->]. reflexivity.
Qed.

Definition first_outcome (k : nat) : bool := (k =? 1)%nat.
Definition den_other (t : nat) (c : string) : option R := if String.eqb c "constant" then Some 1 else None.

Lemma den_at mu lb b : label_mem lb (params_index_of out_p) = b -> b = true -> den_val mu lb = den_value mu lb.
Proof. intros E Eb. exact (val_of_values (params_index_of out_p) (den_value mu) lb out_NoDup (proj1 (label_mem_In lb _) (eq_trans E Eb))). Qed.

Ltac den_val_tac := refine (eq_trans (den_at _ _ _ _ eq_refl) _); [vm_compute; reflexivity|reflexivity].

Lemma den_labelled mu lb : In lb (params_index_of out_p) -> den_val mu lb = den_value mu lb.
Proof. intros Hlb. exact (val_of_values (params_index_of out_p) (den_value mu) lb out_NoDup Hlb). Qed.

Lemma den_weight mu : den_val mu (CMixWeights, O, mixture_name 0, "-"%string) = 1.
Proof. den_val_tac. Qed.

Lemma den_proper mu : proper_parameters out_model (params_index_of out_p) (den_params mu).
Proof.
  pose proof (values_ok (params_index_of out_p) (den_value mu) out_NoDup) as V. fold (den_params mu) in V.
  split.
  - intros t v z Hz. destruct V as [V _].
    assert (E : z = 1); [|lra]. refine (labelled_fun _ _ _ _ _ out_NoDup Hz _).
    assert (Hin : In (CMeasSds, t, v, "-"%string) (params_index_of out_p)) by (destruct Hz as (k & Hk & _); eapply nth_error_In, Hk).
    replace 1 with (den_val mu (CMeasSds, t, v, "-"%string)) by (rewrite (den_labelled mu _ Hin); reflexivity).
    apply V, Hin.
  - exists (fun _ => 1). change (n_mixtures_of out_model) with 1%nat. split; [|cbn [rsum]; ring].
    intros e He. replace e with 0%nat by lia. split; [lra|]. rewrite <- (den_weight mu) at 1. apply (proj1 V).
    apply (proj1 (label_mem_In _ _)). vm_compute. reflexivity.
Qed.

Lemma den_family : measurement_family out_model 2 [0; 1]%Z 1 first_outcome den_other (fun x => den_df (x 1%nat O)).
Proof.
  intros x. split.
  - intros k t v Hk. rewrite out_equations in Hk.
    replace (if first_outcome k then Some (x k O) else None) with (given_value out_model 2 (den_df (x 1%nat O)) [0; 1]%Z 1 t v); [apply given_handed|].
    do 4 (destruct k as [|k]; [injection Hk as <- <-; reflexivity|]). destruct k; discriminate Hk.
  - intros t c Ht Hc. destruct Hc as [<-|[]].
    replace (den_other t "constant") with (given_value out_model 2 (den_df (x 1%nat O)) [0; 1]%Z 1 t "constant"); [apply given_handed|].
    reflexivity.
Qed.

Lemma den_density mu : exists ps, density_setting out_model out_p 2 (fun x => den_df (x 1%nat O)) [1; 2; 3]%Z [0; 1]%Z
  (fun x => den_arrays (x 1%nat O)) (den_params mu) ps 0 1 first_outcome den_other.
Proof.
  destruct (den_likelihood mu) as [ps H]. exists ps. split; [intros x; apply H|]. split; [apply den_proper|].
  split; [now left|]. split; [reflexivity|]. exact den_family.
Qed.

(** *** The closed form of the log likelihood *)

Lemma den_scale mu t : (t < 2)%nat -> anchoring_scale out_model (den_val mu) t "cog" = 1 /\ anchoring_constant out_model (den_val mu) t "cog" = 0.
Proof.
  intros Ht. unfold anchoring_scale, anchoring_constant.
  destruct t as [|[|t]]; [| |lia]; split; den_val_tac.
Qed.

Lemma den_anchored nan neg_inf custom mu z ps : total_custom custom ->
  likelihood_setting out_model out_p 2 (den_df z) [1; 2; 3]%Z [0; 1]%Z (den_arrays z) (den_params mu) ps ->
  anchored_setting nan neg_inf custom out_model out_p 2 (den_df z) [1; 2; 3]%Z [0; 1]%Z (den_arrays z) (den_params mu) ps (den_val mu).
Proof.
  intros Hc H. split; [exact Hc|]. split; [exact H|].
  split; [intros f fs [[= <- <-]|[]]; reflexivity|].
  split; [intros t Ht; exists "y"%string; destruct t as [|[|t]]; [vm_compute; tauto..|lia]|].
  split; [exact out_clean|]. split; [reflexivity|]. split; [left; reflexivity|].
  split.
  { change (o_sigma_points_scale (p_options out_p)) with 2%Q. unfold Q2R. cbn [Qnum Qden QArith_base.inject_Z]. lra. }
  split; [exact (values_ok (params_index_of out_p) (den_value mu) out_NoDup)|]. split.
  - split; [intros t v Hv; rewrite (den_labelled mu _ Hv); exact R1_neq_R0|].
    split; [intros t v Hv; rewrite (den_labelled mu _ Hv); exact R1_neq_R0|].
    split; [intros t v Hv; rewrite (den_labelled mu _ Hv); exact R1_neq_R0|]. change (n_mixtures_of out_model) with 1%nat. split.
    + intros e He. replace e with 0%nat by lia. rewrite den_weight. lra.
    + cbn [rsum]. rewrite den_weight. lra.
  - intros t f Ht [<-|[]] E'. apply R1_neq_R0. exact (eq_trans (eq_sym (proj1 (den_scale mu t Ht))) E').
Qed.

Definition den_data (z : R) : nat -> string -> option R := given_value out_model 2 (den_df z) [0; 1]%Z 1.

Lemma den_first mu x : initial_element out_model (den_val mu) 0 x = normal_density mu 1 (x O O).
Proof.
  unfold initial_element. change (length (latent_of out_model)) with 1%nat.
  assert (M : den_val mu (CInitStates, O, mixture_name 0, factor out_model 0) = mu) by den_val_tac.
  assert (C : den_val mu (CInitChol, O, mixture_name 0, cov_name (factor out_model 0) (factor out_model 0)) = 1) by den_val_tac.
  rewrite mvn_density_S by (cbn [Nat.leb]; rewrite C; exact R1_neq_R0).
  unfold mvn_density. cbn [rprod rsum Nat.leb]. rewrite M, C. rewrite Rmult_1_l. f_equal; ring.
Qed.

Lemma den_measured nan mu z x :
  measurement_equation nan out_model (den_val mu) (den_data z) (0%nat, "q_cog"%string) x = normal_density (x O O) 1 z.
Proof.
  unfold measurement_equation. change (latent_of out_model) with ["cog"%string].
  change (controls_of out_model) with (@nil string). unfold sum_of. cbn [map fold_right].
  assert (F : factor_value nan out_model (den_data z) 0 x "cog" = x 0%nat O) by reflexivity. rewrite F.
  assert (D : den_data z 0 "q_cog" = Some z) by reflexivity. rewrite D.
  assert (L : den_val mu (CLoadings, O, "q_cog", "cog")%string = 1) by den_val_tac. rewrite L.
  assert (C : den_val mu (CControls, O, "q_cog", "constant")%string = 0) by den_val_tac. rewrite C.
  assert (S : den_val mu (CMeasSds, O, "q_cog", "-")%string = 1) by den_val_tac. rewrite S. f_equal; ring.
Qed.

Lemma den_missing nan mu z x t v : In (t, v) [(0%nat, "y"); (1%nat, "y"); (1%nat, "q_cog")]%string ->
  measurement_equation nan out_model (den_val mu) (den_data z) (t, v) x = 1.
Proof. intros H. unfold measurement_equation. destruct H as [[= <- <-]|[[= <- <-]|[[= <- <-]|[]]]]; reflexivity. Qed.

Lemma den_drop nan mu z es eqs t c s v : In (s, v) [(0%nat, "y"); (1%nat, "y"); (1%nat, "q_cog")]%string ->
  integrates es (element_density nan out_model (den_val mu) (den_data z) 0 (eqs ++ [(s, v)]) t) (fun _ => c) ->
  integrates es (element_density nan out_model (den_val mu) (den_data z) 0 eqs t) (fun _ => c).
Proof.
  intros Hs. apply integrates_ext; [|reflexivity]. intros x. unfold element_density. f_equal.
  rewrite map_app. cbn [map]. rewrite den_missing by exact Hs. induction (map _ eqs) as [|a l IH]; [cbn; ring|].
  cbn [app prod_list fold_right] in *. unfold prod_list in IH. now rewrite IH.
Qed.

Lemma den_prior nan mu z : integrates (entries_before 1 1) (element_density nan out_model (den_val mu) (den_data z) 0 [(0%nat, "y")]%string 0) (fun _ => 1).
Proof.
  change (entries_before 1 1) with [(0%nat, 0%nat)]. exists (fun _ => 1). split; [|now intros].
  intros x. apply (line_integral_ext (fun v => normal_density mu 1 v)); [|apply normal_density_integral; lra].
  intros v. unfold element_density. cbn [map prod_list fold_right rprod].
  rewrite den_first, den_missing by (now left). unfold set_entry. cbn [Nat.eqb andb]. ring.
Qed.

Lemma den_outcome nan mu z : integrates (entries_before 1 1)
  (element_density nan out_model (den_val mu) (den_data z) 0 [(0%nat, "y"); (0%nat, "q_cog")]%string 0)
  (fun _ => normal_density mu 2 z).
Proof.
  pose proof two_pi_pos as Ht. assert (S2 : 0 < sqrt 2) by (apply sqrt_lt_R0; lra). change (entries_before 1 1) with [(0%nat, 0%nat)].
  exists (fun _ => / (two_pi * two_pi) * exp (- ((z - mu) * (z - mu)) / (2 * 2)) * (two_pi / sqrt 2)). split.
  - intros x. apply (line_integral_ext (fun v => / (two_pi * two_pi) * exp (- ((z - mu) * (z - mu)) / (2 * 2))
        * exp (- (2 * ((v - (z + mu) / 2) * (v - (z + mu) / 2))) / 2))).
    + intros v. unfold element_density. cbn [map prod_list fold_right rprod].
      rewrite den_first, den_missing, den_measured by (now left). rewrite !unit_normal. unfold set_entry. cbn [Nat.eqb andb].
      rewrite Rmult_assoc, <- exp_plus, Rinv_mult.
      transitivity (/ two_pi * / two_pi * (exp (- ((v - mu) * (v - mu)) / 2) * exp (- ((z - v) * (z - v)) / 2))).
      * rewrite <- exp_plus. f_equal. f_equal. field.
      * ring.
    + apply bell_integral. lra.
  - intros x. unfold normal_density. rewrite (sqrt_mult (2 * PI) 2) by (pose proof PI_RGT_0; lra). fold two_pi. field. lra.
Qed.

Lemma den_unique nan mu z es eqs t c c' :
  integrates es (element_density nan out_model (den_val mu) (den_data z) 0 eqs t) (fun _ => c) ->
  integrates es (element_density nan out_model (den_val mu) (den_data z) 0 eqs t) (fun _ => c') -> c = c'.
Proof. intros H H'. exact (integrates_unique es _ _ _ _ (fun x => eq_refl) H H' (fun _ _ => 0)). Qed.

Lemma den_closed qr nan neg_inf custom mu z ps : correct_qr qr -> total_custom custom ->
  likelihood_setting out_model out_p 2 (den_df z) [1; 2; 3]%Z [0; 1]%Z (den_arrays z) (den_params mu) ps ->
  exists out dbg,
    log_likelihood qr nan (model_tfunc nan neg_inf custom out_model (p_labels out_p)) out_p (den_arrays z) true (den_params mu) = Ok out /\
    out_debug out = Some dbg /\
    rsum 4 (fun k => do_all_contributions dbg k O) = ln (normal_density mu 2 z) /\
    out_contributions out O = ln (normal_density mu 2 z).
Proof.
  intros Hqr Hc H. pose proof (den_anchored nan neg_inf custom mu z ps Hc H) as HA.
  destruct (C107_anchored_likelihood_partial qr nan neg_inf custom _ _ _ _ _ _ _ _ _ _ Hqr HA) as (out & dbg & Ho & Hdbg & Hi).
  exists out, dbg. split; [exact Ho|]. split; [exact Hdbg|].
  assert (Hd : individual_data out_model 2 (den_df z) [0; 1]%Z 1 (den_data z)) by (intros t x Ht; apply given_handed).
  destruct (Hi 0%nat 1%Z (den_data z) eq_refl Hd) as (pr & HK & HS & _ & HT). specialize (HT eq_refl eq_refl).
  change (n_mixtures_of out_model) with 1%nat in HK, HT, HS. change (length (latent_of out_model)) with 1%nat in HK.
  change (length (equations out_model 2)) with 4%nat in HT, HS. specialize (HS 4%nat (le_n 4)).
  pose proof (fun k t v E => HK k t v 0%nat E Nat.lt_0_1) as HK'. cbv zeta in HK'.
  destruct (HK' 0%nat 0%nat "y"%string eq_refl) as (_ & (c0 & P0 & A0 & B0) & _ & _).
  destruct (HK' 1%nat 0%nat "q_cog"%string eq_refl) as (_ & (c1 & P1 & A1 & B1) & _ & _).
  destruct (HK' 2%nat 1%nat "y"%string eq_refl) as (_ & (c2 & P2 & A2 & B2) & _ & _).
  destruct (HK' 3%nat 1%nat "q_cog"%string eq_refl) as (_ & (c3 & P3 & A3 & B3) & _ & _).
  clear HK HK' Hi.
  rewrite out_equations in A0, B0, A1, B1, A2, B2, A3, B3.
  cbn [firstn] in A0, B0, A1, B1, A2, B2, A3, B3.
  assert (M1 : measurements_among out_model [(0%nat, "y")]%string = [(0%nat, "y")]%string) by reflexivity.
  change (measurements_among out_model []) with (@nil (nat * string)) in A0, B0. rewrite M1 in A1, B1.
  apply den_drop in B0; [|now left]. apply den_drop in B2; [|right; now left]. apply den_drop in B3; [|right; right; now left].
  pose proof (den_unique _ _ _ _ _ _ _ _ A0 B0) as E0. pose proof (den_unique _ _ _ _ _ _ _ _ A2 B2) as E2.
  pose proof (den_unique _ _ _ _ _ _ _ _ A3 B3) as E3.
  pose proof (den_unique _ _ _ _ _ _ _ _ A1 (den_prior nan mu z)) as E1. subst c1.
  pose proof (den_unique _ _ _ _ _ _ _ _ B1 (den_outcome nan mu z)) as E1.
  assert (R0 : pr 0%nat 0%nat = 1) by nra. assert (R2 : pr 2%nat 0%nat = 1) by nra. assert (R3 : pr 3%nat 0%nat = 1) by nra.
  assert (E : rsum 1 (fun m => den_val mu (CMixWeights, O, mixture_name m, "-"%string) * rprod 4 (fun j => pr j m)) = normal_density mu 2 z).
  { cbn [rsum rprod]. rewrite R0, R2, R3, den_weight. lra. }
  rewrite E in HS, HT. rewrite <- HS at 1. rewrite <- HT. rewrite !ln_exp. now split.
Qed.

Definition den_ll (mu : R) (x : path) : R := ln (normal_density mu 2 (x 1%nat O)).

Lemma den_reported qr nan neg_inf custom mu ps : correct_qr qr -> total_custom custom ->
  density_setting out_model out_p 2 (fun x => den_df (x 1%nat O)) [1; 2; 3]%Z [0; 1]%Z (fun x => den_arrays (x 1%nat O)) (den_params mu) ps
    0 1 first_outcome den_other ->
  reported_log_likelihood qr nan (model_tfunc nan neg_inf custom out_model (p_labels out_p)) out_model out_p 2
    (fun x => den_arrays (x 1%nat O)) (den_params mu) 0 (den_ll mu).
Proof.
  intros Hqr Hc [H _] x. destruct (den_closed qr nan neg_inf custom mu (x 1%nat O) ps Hqr Hc (H x)) as (out & dbg & A & B & C & D).
  exists out, dbg. split; [exact A|]. split; [exact B|]. split; [symmetry; exact C|]. intros _ _. symmetry. exact D.
Qed.

Lemma den_values : observed_values out_model 2 first_outcome = [(1%nat, 0%nat)].
Proof. reflexivity. Qed.

(** E[ln N(mu, 2)(v)] if v is N(0, 2). *)
Lemma den_expectation mu : integrates (observed_values out_model 2 first_outcome) (fun x => exp (den_ll 0 x) * den_ll mu x)
  (fun _ => - ln (sqrt (2 * PI * 2)) - (2 + mu * mu) / 4).
Proof.
  rewrite den_values. assert (HP := PI_RGT_0). assert (HS : 0 < sqrt (2 * PI * 2)) by (apply sqrt_lt_R0; lra).
  assert (L : forall m v, ln (normal_density m 2 v) = - ln (sqrt (2 * PI * 2)) - (v - m) * (v - m) / 4).
  { intros m v. unfold normal_density. rewrite ln_mult; [|now apply Rinv_0_lt_compat|apply exp_pos].
    rewrite ln_exp, ln_Rinv by exact HS. field. }
  exists (fun _ => - ln (sqrt (2 * PI * 2)) - (2 + mu * mu) / 4). split; [|now intros].
  intros x. unfold den_ll, set_entry. cbn [Nat.eqb].
  pose proof (line_integral_scal _ (- ln (sqrt (2 * PI * 2)) - mu * mu / 4) _ (normal_density_integral 0 2 Rlt_0_2)) as I0.
  pose proof (line_integral_scal _ (mu / 2) _ (first_moment 2 Rlt_0_2)) as I1.
  pose proof (line_integral_scal _ (- / 4) _ (second_moment 2 Rlt_0_2)) as I2.
  pose proof (line_integral_plus _ _ _ _ I0 (line_integral_plus _ _ _ _ I1 I2)) as I.
  match type of I with line_integral _ ?l => replace (- ln (sqrt (2 * PI * 2)) - (2 + mu * mu) / 4) with l by field end.
  refine (line_integral_ext _ _ _ _ I). intros v. cbv beta.
  rewrite exp_ln by (apply normal_density_pos; lra). rewrite L. field.
Qed.

(** The density of the outcome is N(mu, 2).  The expected log likelihood of the true
    initial mean 0 is larger than the one of mean 1. *)
Example C108_C109_nonvacuous : exists md p n dfs ids lv i id observed other ars params ps params' ps' ll ll' own cross,
  observed_values md n observed <> [] /\
  density_setting md p n dfs ids lv ars params ps i id observed other /\
  density_setting md p n dfs ids lv ars params' ps' i id observed other /\
  (forall qr nan neg_inf custom, correct_qr qr -> total_custom custom ->
     reported_log_likelihood qr nan (model_tfunc nan neg_inf custom md (p_labels p)) md p n ars params i ll /\
     reported_log_likelihood qr nan (model_tfunc nan neg_inf custom md (p_labels p)) md p n ars params' i ll') /\
  (forall x, exp (ll x) = normal_density 0 2 (x 1%nat O)) /\ (forall x, exp (ll' x) = normal_density 1 2 (x 1%nat O)) /\
  integrates (observed_values md n observed) (fun x => exp (ll x) * ll x) (fun _ => own) /\
  integrates (observed_values md n observed) (fun x => exp (ll x) * ll' x) (fun _ => cross) /\ cross < own.
Proof.
  destruct (den_density 0) as [ps H]. destruct (den_density 1) as [ps' H'].
  exists out_model, out_p, 2%nat, (fun x => den_df (x 1%nat O)), [1; 2; 3]%Z, [0; 1]%Z, 0%nat, 1%Z, first_outcome, den_other,
    (fun x => den_arrays (x 1%nat O)), (den_params 0), ps, (den_params 1), ps', (den_ll 0), (den_ll 1),
    (- ln (sqrt (2 * PI * 2)) - (2 + 0 * 0) / 4), (- ln (sqrt (2 * PI * 2)) - (2 + 1 * 1) / 4).
  split; [rewrite den_values; discriminate|]. split; [exact H|]. split; [exact H'|].
  split; [intros qr nan neg_inf custom Hqr Hc; split; [now apply den_reported with ps|now apply den_reported with ps']|].
  split; [intros x; apply exp_ln, normal_density_pos; lra|]. split; [intros x; apply exp_ln, normal_density_pos; lra|].
  split; [apply den_expectation|]. split; [apply den_expectation|]. lra.
Qed.
