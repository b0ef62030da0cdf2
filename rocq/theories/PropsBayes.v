(** The likelihood and the filtered states of linear models (C70 and C71): the filter
    computes integrals over the latent factors exactly. *)
From Coquelicot Require Import Coquelicot.
Require Import Reals Qreals String Arith ZArith Bool List Lia Lra Sorted.
From Verif Require Import PyBase ListFacts ModelSpec ProcessModel CheckModel SpecModel ProcessModelFacts
  SpecParse SpecIndex IndexFacts ParamsIndex ParseParams ParamsVec ExampleModels ParseFacts PropsSpec PropsParse ProcessData SpecData PropsData
  RSum Kalman SpecKalman KalmanFacts QRWitness Clipping Likelihood SpecLikelihood ScheduleFacts LikelihoodFacts LikelihoodRun PropsKalman
  PropsLikelihood PropsFiltered TransitionFunctions SpecTransition TransitionFacts PropsTransition SpecGaussian GaussianFacts
  SpecStateSpace StateSpaceFacts SpecModelDensity ModelDensityFacts BayesFacts.
Import ListNotations.
Open Scope R_scope.

(** A linear model, data and parameters for which the model is a regular linear state
    space model; [out] and [dbg] is what the likelihood function returns. *)
Definition linear_setting (nan neg_inf : R) (custom : string -> dict R -> dict R -> list R -> result R)
    (md : model_dict) (p : processed) (n : nat) (df : frame R)
    (ids lv : list Z) (ar : arrays R) (params : list R) (ps : parsed R) (val : label -> R) : Prop :=
  total_custom custom /\
  likelihood_setting md p n df ids lv ar params ps /\ linear_model md /\ every_period_measured md n /\
  (observed_of md = [] \/ n_mixtures_of md = 1%nat) /\
  0 <= Q2R (o_sigma_points_scale (p_options p)) /\
  parameter_values (params_index_of p) params val /\ regular_parameters md (params_index_of p) val.

(** The data of an individual as the filter gets them (see C29). *)
Definition individual_data (md : model_dict) (n : nat) (df : frame R) (lv : list Z) (id : Z)
    (data : nat -> string -> option R) : Prop :=
  forall t x, (t < n)%nat -> handed_over 1 md n df lv id t x (data t x).

Section Linear.
  Variable qr : qr_function.
  Hypothesis Hqr : correct_qr qr.
  Variables (nan neg_inf : R) (custom : string -> dict R -> dict R -> list R -> result R).
  Variables (md : model_dict) (p : processed) (n : nat) (df : frame R) (ids lv : list Z) (ar : arrays R)
    (params : list R) (ps : parsed R) (val : label -> R).
  Hypothesis HS : linear_setting nan neg_inf custom md p n df ids lv ar params ps val.

  Let Hcustom : total_custom custom. Proof. apply HS. Qed.
  Let H : likelihood_setting md p n df ids lv ar params ps. Proof. apply HS. Qed.
  Let Hlin : linear_model md. Proof. apply HS. Qed.
  Let Hev : every_period_measured md n. Proof. apply HS. Qed.
  Let Hfit : observed_of md = [] \/ n_mixtures_of md = 1%nat. Proof. apply HS. Qed.
  Let Hkappa : 0 <= Q2R (o_sigma_points_scale (p_options p)). Proof. apply HS. Qed.
  Let Hval : parameter_values (params_index_of p) params val. Proof. apply HS. Qed.
  Let Hreg : regular_parameters md (params_index_of p) val. Proof. apply HS. Qed.
  Let Hwf : wf_dicts md. Proof. apply H. Qed.
  Let Hp : process_model md = Ok p. Proof. apply H. Qed.
  Let Hn : has_n_periods md n. Proof. apply H. Qed.

  Let kappa := Q2R (o_sigma_points_scale (p_options p)).
  Let nl := length (latent_of md).
  Let no := length (observed_of md).
  Let nm := n_mixtures_of md.
  Let nc := S (length (controls_of md)).
  Let inp := inputs_of ps ar.
  Let tfunc := model_tfunc nan neg_inf custom md (p_labels p).
  Let periods := map fst (equations md n).

  Lemma mixtures_pos : (1 <= nm)%nat.
  Proof.
    destruct Hreg as (_ & _ & _ & _ & Hs). fold nm in Hs. clearbody nm. destruct nm; [|lia].
    cbn [rsum] in Hs. lra.
  Qed.

  Lemma factors_pos : 0 < INR nl + kappa.
  Proof.
    assert (0 < INR nl).
    { apply lt_0_INR. destruct Hn as [(f & fs & Hin & _) _]. unfold nl, latent_of. rewrite map_length.
      destruct (md_factors md); [destruct Hin|cbn; lia]. }
    unfold kappa. lra.
  Qed.

  Lemma shape_ok : no = O \/ nm = 1%nat.
  Proof. unfold no, nm. destruct Hfit as [-> | ->]; [now left|now right]. Qed.

  Lemma purposes_plain : purposes (p_update p) = plain periods.
  Proof.
    unfold purposes, plain, periods. rewrite (equations_update md p n Hwf Hp Hn), !map_map. apply map_ext_in.
    intros r Hr. cbn [u_key fst]. f_equal. rewrite <- (row_anchoring md p n Hwf Hp Hn r Hr).
    destruct Hlin as [Hout _]. unfold is_anchoring_equation. now rewrite Hout.
  Qed.

  Lemma periods_in t : In t periods <-> (t < n)%nat.
  Proof.
    split.
    - intros Ht. unfold periods in Ht. apply in_map_iff in Ht as ([t' v] & <- & Hin). eapply equations_period, Hin.
    - intros Ht. destruct (Hev t Ht) as [v Hv]. unfold periods. apply in_map_iff. exists (t, v). auto.
  Qed.

  Lemma periods_chain : exists ts, periods = O :: ts /\ chain O ts.
  Proof.
    pose proof (equations_sorted md n) as Hs. fold periods in Hs.
    assert (H1 : (1 <= n)%nat) by (apply (n_ge_1 md p n df ids lv ar params ps H)).
    assert (C : chain O periods).
    { apply chain_sorted; [exact Hs|intros; lia|]. intros t _ (s & Hin & Hle). apply periods_in in Hin. apply periods_in. lia. }
    assert (Z : In O periods) by (apply periods_in; lia).
    destruct periods as [|t ts]; [destruct Z|]. destruct C as [_ C].
    assert (t = O) as ->.
    { destruct Z as [E|Z]; [assumption|]. apply StronglySorted_inv in Hs as [_ Hh]. rewrite Forall_forall in Hh.
      specialize (Hh _ Z). lia. }
    eauto.
  Qed.

  Lemma good_plain j : Forall (good_event tfunc nl no inp (coefficient md val) (intercept md val))
    (code_events 0 (plain (firstn j periods))) .
  Proof.
    apply Forall_forall. intros e He.
    assert (Hsub : forall t, In t (firstn j periods) -> (t < n)%nat).
    { intros t Ht. assert (Hin : In t periods) by (rewrite <- (firstn_skipn j periods); apply in_or_app; now left).
      unfold periods in Hin. apply in_map_iff in Hin as ([t' v] & <- & Hin). eapply equations_period, Hin. }
    destruct e as [k t|k t|t]; cbn [good_event].
    - assert (Hk : In (k, t) (measured (code_events 0 (plain (firstn j periods))))).
      { unfold measured. apply in_flat_map. exists (Measure k t). split; [exact He|now left]. }
      rewrite measured_plain in Hk.
      assert (Hkt : nth_error (firstn j periods) k = Some t).
      { clear -Hk. revert Hk. generalize (firstn j periods). intros ts.
        assert (G : forall ts s, In (k, t) (combine (seq s (length ts)) ts) -> (s <= k)%nat /\ nth_error ts (k - s) = Some t).
        { clear. induction ts as [|a ts IH]; intros s; [intros []|]. cbn [length seq combine]. intros [E|Hin].
          - injection E as -> ->. rewrite Nat.sub_diag. auto.
          - destruct (IH (S s) Hin) as [A B]. split; [lia|]. replace (k - s)%nat with (S (k - S s)) by lia. exact B. }
        intros Hin. destruct (G ts O Hin) as [_ B]. now rewrite Nat.sub_0_r in B. }
      assert (Hkp : nth_error periods k = Some t).
      { rewrite <- (firstn_skipn j periods). rewrite nth_error_app1; [exact Hkt|]. apply nth_error_Some. congruence. }
      unfold periods in Hkp. rewrite nth_error_map in Hkp.
      destruct (nth_error (equations md n) k) as [[t' v]|] eqn:Ek; [|discriminate]. cbn in Hkp. injection Hkp as ->.
      unfold inp. rewrite (input_sd md p n df ids lv ar params ps val H Hval k t v Ek).
      apply Hreg. apply (In_params_index md p _ Hwf Hp). constructor.
      destruct (C09_measurement_parameters R 0 1 ln md p n (length ids) params ps Hwf (idx_NoDup md p Hwf ltac:(apply H) Hp) Hp Hn ltac:(apply H) ltac:(apply H))
        as (_ & _ & _ & _ & Heq & _).
      destruct (proj2 (proj2 (Heq k t v Ek))) as (x & _ & (j' & Hj' & _)). apply nth_error_In in Hj'.
      apply (In_params_index md p _ Hwf Hp) in Hj'. inversion Hj'. assumption.
    - exact (no_anchor_plain _ _ _ He).
    - assert (Ht : (t + 1 < n)%nat).
      { destruct (firstn j periods) as [|t0 ts]; [destruct He|]. apply transitions_plain in He.
        specialize (Hsub (S t) ltac:(now right)). lia. }
      split; [|split].
      + exact (transition_affine nan neg_inf custom Hcustom md p n df ids lv ar params ps val H Hlin Hval t Ht).
      + intros f Hf. destruct (input_anchoring md p n df ids lv ar params ps H Hlin (t + 1) f ltac:(lia) ltac:(lia)) as [E _].
        fold inp in E. rewrite E. lra.
      + intros f Hf. unfold inp. rewrite (input_shock md p n df ids lv ar params ps val H Hval t f Ht Hf).
        apply Hreg. apply (In_params_index md p _ Hwf Hp). apply (par_shock_sd md t _ n); [exact Hn|exact Ht|].
        eapply nth_error_In. apply factor_nth. exact Hf.
  Qed.

  Section Individual.
    Variables (i : nat) (id : Z) (data : nat -> string -> option R).
    Hypothesis Hi : nth_error ids i = Some id.
    Hypothesis Hdata : individual_data md n df lv id data.

    Lemma density_by_label j t x : walk 0 (code_events 0 (plain (firstn j periods))) = Some t -> (t < n)%nat ->
      rsum nm (fun m => belief_density nl i (initial_belief ps) m (x O))
      * prod_list (map (fun ev => event_density nan tfunc nl nc inp i ev x) (code_events 0 (plain (firstn j periods))))
      = model_density nan md val data (firstn j (equations md n)) t x.
    Proof.
      intros Hw Ht. rewrite (events_product nan tfunc nl nc inp i x _ _ _ Hw). unfold model_density.
      rewrite (initial_by_label md p n df ids lv ar params ps val i id H Hval Hi Hreg).
      rewrite Rmult_assoc. f_equal. rewrite Nat.sub_0_r. f_equal.
      - rewrite (prod_list_rprod O), seq_length. apply rprod_ext. intros s Hs. rewrite seq_nth by exact Hs. cbn [Nat.add].
        symmetry. apply (transition_by_label nan neg_inf custom Hcustom md p n df ids lv ar params ps val i id data H Hlin Hval Hi Hdata). lia.
      - rewrite measured_plain. f_equal.
        assert (G : forall eqs s, (forall k tv, nth_error eqs k = Some tv -> nth_error (equations md n) (s + k) = Some tv) ->
          map (fun kt => equation_density nan nl nc inp i (fst kt) (snd kt) x) (combine (seq s (length (map fst eqs))) (map fst eqs))
          = map (fun tv => measurement_equation nan md val data tv x) eqs).
        { induction eqs as [|[t' v] eqs IH]; intros s Heq; [reflexivity|]. cbn [map length seq combine fst snd]. f_equal.
          - symmetry. apply (equation_by_label nan md p n df ids lv ar params ps val i id data H Hval Hi Hdata).
            rewrite <- (Heq O (t', v) eq_refl). now rewrite Nat.add_0_r.
          - apply IH. intros k tv Hk. rewrite <- (Heq (S k) tv Hk). f_equal. lia. }
        unfold periods. rewrite firstn_map. apply G. intros k tv Hk. cbn [Nat.add].
        rewrite <- (firstn_skipn j (equations md n)). rewrite nth_error_app1; [exact Hk|]. apply nth_error_Some. congruence.
    Qed.

    Lemma prefix_run recs k t v :
      run_model qr nan tfunc p (length ids) ps ar (code_events 0 (purposes (p_update p))) = Ok recs ->
      nth_error (equations md n) k = Some (t, v) ->
      exists b' rec, good_belief nm nl i b' /\ nth_error recs k = Some rec /\
        re_states rec = be_states b' /\ re_logw rec = be_logw b' /\
        walk 0 (code_events 0 (plain (firstn (S k) periods))) = Some t /\
        integrates (entries_before nl t) (model_density nan md val data (firstn (S k) (equations md n)) t)
          (fun x => exp (total i (firstn (S k) recs)) * rsum nm (fun m => belief_density nl i b' m (x t))) /\
        integrates (entries_before nl (S t)) (model_density nan md val data (firstn (S k) (equations md n)) t)
          (fun x => exp (total i (firstn (S k) recs))).
    Proof.
      intros Er Hk. rewrite purposes_plain in Er. unfold run_model in Er.
      destruct (p_dims_eq md p Hp) as (Dl & Do & Dc & Dm & _). rewrite Dl, Do, Dc, Dm in Er.
      fold nl no nc nm kappa inp in Er.
      assert (Hkp : nth_error periods k = Some t) by (unfold periods; now rewrite nth_error_map, Hk).
      assert (Hlt : (k < length periods)%nat) by (apply nth_error_Some; congruence).
      assert (Ht : (t < n)%nat) by (apply (equations_period md n t v); eapply nth_error_In, Hk).
      assert (Hsplit : firstn (S k) periods = firstn k periods ++ [t]).
      { clear -Hkp. revert k Hkp. induction periods as [|a l IH]; intros [|k] Hk; try discriminate; cbn [firstn app] in *.
        - injection Hk as ->. reflexivity.
        - f_equal. now apply IH. }
      destruct (plain_app (firstn (S k) periods) (skipn (S k) periods) 0) as [rest Erest].
      rewrite firstn_skipn in Erest. rewrite Erest in Er.
      destruct (run_app _ _ _ _ _ _ _ _ _ _ _ _ _ _ Er) as (b1 & r1 & r2 & F & R1 & _ & ->).
      assert (L1 : length r1 = S k).
      { rewrite (run_length _ _ _ _ _ _ _ _ _ _ _ _ _ R1), measured_plain, combine_length, seq_length, firstn_length. lia. }
      assert (E1 : firstn (S k) (r1 ++ r2) = r1).
      { rewrite firstn_app, L1, Nat.sub_diag, firstn_O, app_nil_r. rewrite <- L1. apply firstn_all. }
      assert (Hw : walk 0 (code_events 0 (plain (firstn (S k) periods))) = Some t).
      { destruct periods_chain as (ts & Ets & Hc). rewrite Ets. cbn [firstn]. rewrite walk_plain by now apply chain_firstn.
        f_equal. rewrite Ets in Hsplit. cbn [firstn] in Hsplit.
        assert (last (O :: firstn k ts) O = t) as <- by (rewrite Hsplit; apply last_last).
        destruct (firstn k ts); [reflexivity|]. reflexivity. }
      pose proof (good_plain (S k)) as Hgood.
      pose proof (initial_good md p n df ids lv ar params ps val i id H Hval Hi Hreg) as Hinit.
      destruct (walk_integral qr Hqr nan tfunc (length ids) nm nl no nc kappa inp i (coefficient md val) (intercept md val)
        mixtures_pos shape_ok Hkappa factors_pos _ t _ r1 Hw Hgood Hinit R1) as (b' & Hf & Hb' & Hint).
      pose proof (walk_likelihood qr Hqr nan tfunc (length ids) nm nl no nc kappa inp i (coefficient md val) (intercept md val)
        mixtures_pos shape_ok Hkappa factors_pos _ t _ r1 Hw Hgood Hinit R1) as Hlik.
      assert (Hrec : exists rec, nth_error (r1 ++ r2) k = Some rec /\ re_states rec = be_states b' /\ re_logw rec = be_logw b').
      { destruct (plain_snoc (firstn k periods) t 0) as [evs Eevs]. rewrite <- Hsplit in Eevs.
        rewrite Eevs in R1, Hf. destruct (run_snoc _ _ _ _ _ _ _ _ _ _ _ _ _ _ _ _ R1 Hf) as (recs' & r & -> & A & B).
        exists r. split; [|split; assumption]. rewrite app_length in L1. cbn in L1.
        rewrite <- app_assoc. rewrite nth_error_app2 by lia. replace (k - length recs')%nat with O by lia. reflexivity. }
      destruct Hrec as (rec & Hnth & Hst & Hlw). exists b', rec. rewrite E1.
      split; [exact Hb'|]. split; [exact Hnth|]. split; [exact Hst|]. split; [exact Hlw|]. split; [exact Hw|]. split.
      - refine (integrates_ext _ _ _ _ _ _ _ Hint); [|reflexivity]. intros x. now apply density_by_label.
      - refine (integrates_ext _ _ _ _ _ _ _ Hlik); [|reflexivity]. intros x. now apply density_by_label.
    Qed.
  End Individual.
End Linear.

Lemma sum_list_firstn {A} (f : A -> R) (d : A) k l : (k <= length l)%nat ->
  sum_list (map f (firstn k l)) = rsum k (fun j => f (nth j l d)).
Proof.
  revert l. induction k as [|k IH]; intros l Hk; [reflexivity|]. destruct l as [|a l]; [cbn in Hk; lia|].
  rewrite rsum_S_l. cbn [firstn map nth]. unfold sum_list in *. cbn [fold_right]. f_equal. apply IH. cbn in Hk. lia.
Qed.

(** * C70 *)

(** The likelihood of a linear model is exact: integrating the joint density of the
    latent factors of all periods and of the measurements of an individual over all
    factors yields exp of the sum of its contributions, and hence exp of the log
    likelihood reported for the individual if no clipping bound is set. *)
Theorem C70_likelihood_is_integral :
  forall qr nan neg_inf custom md p n df ids lv ar params ps val,
    correct_qr qr -> linear_setting nan neg_inf custom md p n df ids lv ar params ps val ->
    exists out dbg,
      log_likelihood qr nan (model_tfunc nan neg_inf custom md (p_labels p)) p ar true params = Ok out /\
      out_debug out = Some dbg /\
      forall i id data, nth_error ids i = Some id -> individual_data md n df lv id data ->
        let density := model_density nan md val data (equations md n) (n - 1) in
        integrates (entries_before (length (latent_of md)) n) density
          (fun _ => exp (rsum (length (equations md n)) (fun k => do_all_contributions dbg k i))) /\
        (o_clip_lower (p_options p) = None -> o_clip_upper (p_options p) = None ->
         integrates (entries_before (length (latent_of md)) n) density (fun _ => exp (out_contributions out i))).
Proof.
  intros qr nan neg_inf custom md p n df ids lv ar params ps val Hqr HS.
  assert (H : likelihood_setting md p n df ids lv ar params ps) by apply HS.
  assert (Hwf : wf_dicts md) by apply H. assert (Hp : process_model md = Ok p) by apply H.
  assert (Hn : has_n_periods md n) by apply H.
  assert (Hfit : shapes_fit (length ids) (n_mixtures (p_dims p)) (n_observed (p_dims p)) = true).
  { apply shapes_fit_spec. destruct (p_dims_eq md p Hp) as (_ & -> & _ & -> & _).
    destruct HS as (_ & _ & _ & _ & [-> | ->] & _); auto. }
  destruct (likelihood_events qr nan (model_tfunc nan neg_inf custom md (p_labels p)) md p n df ids lv ar params ps true H Hfit)
    as (recs & out & Er & Hl & Ho & Hr).
  destruct Hr as (_ & Hc & _ & Hd). destruct (Hd eq_refl) as (dbg & Hdbg & _ & _ & Hrec).
  exists out, dbg. split; [exact Ho|]. split; [exact Hdbg|]. intros i id data Hi Hdata density.
  assert (Ll : length recs = length (equations md n)).
  { rewrite Hl, (equations_update md p n Hwf Hp Hn). symmetry. apply map_length. }
  assert (H1 : (1 <= n)%nat) by exact (n_ge_1 md p n df ids lv ar params ps H).
  assert (Hlast : exists k v, S k = length (equations md n) /\ nth_error (equations md n) k = Some ((n - 1)%nat, v)).
  { destruct (proj1 (proj2 (proj2 (proj2 HS))) (n - 1)%nat ltac:(lia)) as (v & Hv).
    pose proof (equations_sorted md n) as Hs. pose proof (fun t v => equations_period md n t v) as Hlt. clear -Hv Hs Hlt.
    destruct (exists_last (l := equations md n)) as (l & [t w] & E).
    { intros E. rewrite E in Hv. destruct Hv. }
    rewrite E in *. exists (length l), w. rewrite app_length. cbn [length]. split; [lia|].
    rewrite nth_error_app2, Nat.sub_diag by lia. cbn [nth_error]. f_equal. f_equal.
    assert (A : (t < n)%nat) by (apply (Hlt t w); apply in_or_app; right; now left).
    assert (B : (n - 1 <= t)%nat); [|lia].
    apply in_app_or in Hv as [Hv|[Hv|[]]]; [|injection Hv as <- _; lia].
    rewrite map_app in Hs. cbn [map fst] in Hs. apply (in_map fst) in Hv. cbn [fst] in Hv. clear -Hs Hv.
    induction (map fst l) as [|a ts IH]; [destruct Hv|]. cbn [app] in Hs. apply StronglySorted_inv in Hs as [Hs Hh].
    destruct Hv as [->|Hv]; [|now apply IH]. rewrite Forall_forall in Hh. apply Hh. apply in_or_app. right. now left. }
  destruct Hlast as (k & v & Hk & Hnth).
  destruct (prefix_run qr Hqr nan neg_inf custom md p n df ids lv ar params ps val HS i id data Hi Hdata recs k _ v Er Hnth)
    as (_ & _ & _ & _ & _ & _ & _ & _ & Hint).
  rewrite Hk in Hint. rewrite firstn_all in Hint. rewrite <- Ll, firstn_all in Hint. replace (S (n - 1)) with n in Hint by lia.
  set (d := mk_record (fun _ => 0) (fun _ _ _ => 0) (fun _ _ => 0) (fun _ _ => None) (fun _ _ => None)).
  assert (Et : total i recs = rsum (length (equations md n)) (fun k => do_all_contributions dbg k i)).
  { unfold total. rewrite <- (firstn_all recs). rewrite (sum_list_firstn _ d) by lia. rewrite Ll. apply rsum_ext.
    intros j Hj. destruct (Hrec j (nth j recs d)) as (-> & _); [|reflexivity]. apply nth_error_nth'. lia. }
  split.
  - rewrite <- Et. exact Hint.
  - intros C1 C2. rewrite (Hc i). unfold contribution_of, clip_with. rewrite C1, C2. cbn [option_map].
    exact Hint.
Qed.
Print Assumptions C70_likelihood_is_integral.

(** The value of such an integral is unique. *)
Theorem C70_integral_unique :
  forall entries f g g', integrates entries f g -> integrates entries f g' -> forall x, g x = g' x.
Proof. intros entries f g g' A B. exact (integrates_unique entries _ _ _ _ (fun _ => eq_refl) A B). Qed.
Print Assumptions C70_integral_unique.

(** * C71 *)

(** The filtered distribution is the exact posterior: after equation [k], the density of
    the factors of its period together with all measurements up to [k] is the product
    of the likelihood so far and of a mixture of normals with the reported weights and
    the reported filtered states as means. *)
Theorem C71_filtered_is_posterior :
  forall qr nan neg_inf custom md p n df ids lv ar params ps val,
    correct_qr qr -> linear_setting nan neg_inf custom md p n df ids lv ar params ps val ->
    exists out dbg,
      log_likelihood qr nan (model_tfunc nan neg_inf custom md (p_labels p)) p ar true params = Ok out /\
      out_debug out = Some dbg /\
      forall i id data k t v, nth_error ids i = Some id -> individual_data md n df lv id data ->
        nth_error (equations md n) k = Some (t, v) ->
        exists roots : nat -> mat,
          (forall m, (m < n_mixtures_of md)%nat -> proper_root (length (latent_of md)) (roots m)) /\
          rsum (n_mixtures_of md) (fun m => exp (do_logw dbg k i m)) = 1 /\
          integrates (entries_before (length (latent_of md)) t)
            (model_density nan md val data (firstn (S k) (equations md n)) t)
            (fun x =>
               exp (rsum (S k) (fun j => do_all_contributions dbg j i))
               * rsum (n_mixtures_of md) (fun m =>
                   exp (do_logw dbg k i m)
                   * mvn_density (length (latent_of md)) (do_filtered_states dbg k i m) (roots m) (x t))) /\
          integrates (entries_before (length (latent_of md)) (S t))
            (model_density nan md val data (firstn (S k) (equations md n)) t)
            (fun _ => exp (rsum (S k) (fun j => do_all_contributions dbg j i))).
Proof.
  intros qr nan neg_inf custom md p n df ids lv ar params ps val Hqr HS.
  assert (H : likelihood_setting md p n df ids lv ar params ps) by apply HS.
  assert (Hwf : wf_dicts md) by apply H. assert (Hp : process_model md = Ok p) by apply H.
  assert (Hn : has_n_periods md n) by apply H.
  assert (Hfit : shapes_fit (length ids) (n_mixtures (p_dims p)) (n_observed (p_dims p)) = true).
  { apply shapes_fit_spec. destruct (p_dims_eq md p Hp) as (_ & -> & _ & -> & _).
    destruct HS as (_ & _ & _ & _ & [-> | ->] & _); auto. }
  destruct (likelihood_events qr nan (model_tfunc nan neg_inf custom md (p_labels p)) md p n df ids lv ar params ps true H Hfit)
    as (recs & out & Er & Hl & Ho & Hr).
  destruct Hr as (_ & _ & _ & Hd). destruct (Hd eq_refl) as (dbg & Hdbg & _ & _ & Hrec).
  exists out, dbg. split; [exact Ho|]. split; [exact Hdbg|]. intros i id data k t v Hi Hdata Hk.
  assert (Ll : length recs = length (equations md n)).
  { rewrite Hl, (equations_update md p n Hwf Hp Hn). symmetry. apply map_length. }
  assert (Hkl : (k < length (equations md n))%nat) by (apply nth_error_Some; congruence).
  destruct (prefix_run qr Hqr nan neg_inf custom md p n df ids lv ar params ps val HS i id data Hi Hdata recs k t v Er Hk)
    as (b' & rec & [Hproper Hsum] & Hnth & Hst & Hlw & _ & Hint & Hint').
  destruct (Hrec k rec Hnth) as (_ & _ & _ & Dst & Dlw).
  set (d := mk_record (fun _ => 0) (fun _ _ _ => 0) (fun _ _ => 0) (fun _ _ => None) (fun _ _ => None)).
  assert (Et : total i (firstn (S k) recs) = rsum (S k) (fun j => do_all_contributions dbg j i)).
  { unfold total. rewrite (sum_list_firstn _ d) by lia. apply rsum_ext.
    intros j Hj. destruct (Hrec j (nth j recs d)) as (-> & _); [|reflexivity]. apply nth_error_nth'. lia. }
  exists (be_chols b' i). split; [exact Hproper|]. rewrite Dst, Dlw, Hst, Hlw, <- Et. split; [exact Hsum|].
  split; [exact Hint|exact Hint'].
Qed.
Print Assumptions C71_filtered_is_posterior.

(** ** What does not matter *)

(** Two specifications with the same factors, controls, observed factors and number of
    mixture elements and without anchoring: they may differ in the stage map and in all
    estimation options that are not part of the statistical model. *)
Definition same_model (md md' : model_dict) : Prop :=
  md_factors md = md_factors md' /\ observed_of md = observed_of md' /\ controls_of md = controls_of md' /\
  n_mixtures_of md = n_mixtures_of md'.

Lemma same_equations md md' n : md_factors md = md_factors md' -> outcomes_of md = [] -> outcomes_of md' = [] ->
  equations md n = equations md' n.
Proof.
  intros E O O'. unfold equations. f_equal. unfold written_equations. apply flat_map_ext. intros t. f_equal. rewrite E. f_equal.
  unfold outcomes_of in *. destruct (md_anchoring md) as [a|], (md_anchoring md') as [a'|];
    try destruct (as_outcomes a) as [o|]; try destruct (as_outcomes a') as [o'|]; subst; reflexivity.
Qed.

Lemma same_data md md' n (df : frame R) lv id t x w : controls_of md = controls_of md' ->
  outcomes_of md = [] -> outcomes_of md' = [] -> equations md n = equations md' n ->
  handed_over 1 md n df lv id t x w -> handed_over 1 md' n df lv id t x w.
Proof.
  intros Ec O O' Eeq.
  assert (V : forall y, value 1 md df lv id t y = value 1 md' df lv id t y).
  { intros y. unfold value, data_value. now rewrite O, O'. }
  assert (D : discarded 1 md' n df lv id t -> discarded 1 md n df lv id t).
  { intros [(c & Hc & Hv) (v & Hin & Hnv)]. split.
    - exists c. rewrite Ec, V. auto.
    - exists v. rewrite Eeq, V. auto. }
  assert (D' : discarded 1 md n df lv id t -> discarded 1 md' n df lv id t).
  { intros [(c & Hc & Hv) (v & Hin & Hnv)]. split.
    - exists c. rewrite <- Ec, <- V. auto.
    - exists v. rewrite <- Eeq, <- V. auto. }
  intros [A B]. split; [auto|]. intros N. rewrite <- V. auto.
Qed.

Lemma same_density nan md md' val data eqs t x : same_model md md' ->
  model_density nan md val data eqs t x = model_density nan md' val data eqs t x.
Proof.
  intros (E1 & E2 & E3 & E4). assert (El : latent_of md = latent_of md') by (unfold latent_of; now rewrite E1).
  unfold model_density, initial_mixture, transition_equation, measurement_equation, factor_value, factor.
  now rewrite El, E2, E3, E4.
Qed.

(** The contributions to the log likelihood of a linear model depend neither on which
    triangular decomposition the linear algebra library returns nor on the scale of the
    sigma points, the clipping, the bounds, the stage map or on what stands for
    missing numbers in custom functions. *)
Theorem C70_numerical_choices_irrelevant :
  forall qr qr' nan neg_inf neg_inf' custom custom' md md' p p' n df ids lv ar ar' params params' ps ps' val,
    correct_qr qr -> correct_qr qr' -> same_model md md' ->
    linear_setting nan neg_inf custom md p n df ids lv ar params ps val ->
    linear_setting nan neg_inf' custom' md' p' n df ids lv ar' params' ps' val ->
    exists out dbg out' dbg',
      log_likelihood qr nan (model_tfunc nan neg_inf custom md (p_labels p)) p ar true params = Ok out /\
      out_debug out = Some dbg /\
      log_likelihood qr' nan (model_tfunc nan neg_inf' custom' md' (p_labels p')) p' ar' true params' = Ok out' /\
      out_debug out' = Some dbg' /\
      forall i id data, nth_error ids i = Some id -> individual_data md n df lv id data ->
        forall k, (k < length (equations md n))%nat ->
          do_all_contributions dbg k i = do_all_contributions dbg' k i.
Proof.
  intros qr qr' nan neg_inf neg_inf' custom custom' md md' p p' n df ids lv ar ar' params params' ps ps' val Hqr Hqr' Hsame HS HS'.
  destruct (C71_filtered_is_posterior qr nan neg_inf custom md p n df ids lv ar params ps val Hqr HS) as (out & dbg & E1 & E2 & F).
  destruct (C71_filtered_is_posterior qr' nan neg_inf' custom' md' p' n df ids lv ar' params' ps' val Hqr' HS') as (out' & dbg' & E1' & E2' & F').
  exists out, dbg, out', dbg'. split; [exact E1|]. split; [exact E2|]. split; [exact E1'|]. split; [exact E2'|].
  intros i id data Hi Hdata.
  assert (O : outcomes_of md = []) by apply HS. assert (O' : outcomes_of md' = []) by apply HS'.
  assert (Eeq : equations md n = equations md' n) by (apply same_equations; [apply Hsame|assumption|assumption]).
  assert (El : latent_of md = latent_of md') by (unfold latent_of; now rewrite (proj1 Hsame)).
  assert (Hdata' : individual_data md' n df lv id data).
  { intros t x Ht. refine (same_data md md' n df lv id t x _ _ O O' Eeq (Hdata t x Ht)). apply Hsame. }
  assert (S : forall k, (k < length (equations md n))%nat ->
    rsum (Datatypes.S k) (fun j => do_all_contributions dbg j i) = rsum (Datatypes.S k) (fun j => do_all_contributions dbg' j i)).
  { intros k Hk. destruct (nth_error (equations md n) k) as [[t v]|] eqn:Ek; [|apply nth_error_None in Ek; lia].
    destruct (F i id data k t v Hi Hdata Ek) as (_ & _ & _ & _ & I).
    destruct (F' i id data k t v Hi Hdata' ltac:(now rewrite <- Eeq)) as (_ & _ & _ & _ & I').
    rewrite <- El, <- Eeq in I'.
    pose proof (integrates_unique _ _ _ _ _ (fun x => same_density nan md md' val data _ t x Hsame) I I' (fun _ _ => 0)) as U.
    cbv beta in U. apply exp_inv in U. exact U. }
  intros k Hk. pose proof (S k Hk) as Sk. cbn [rsum] in Sk.
  destruct k as [|k]; [cbn [rsum] in Sk; lra|]. pose proof (S k ltac:(lia)) as Sk'. lra.
Qed.
Print Assumptions C70_numerical_choices_irrelevant.

(** Every parameter vector of the right length has such values. *)
Lemma parameter_values_exist idx params : NoDup idx -> length params = length idx ->
  parameter_values idx params (val_of 0 idx params).
Proof.
  intros Hnd Hl. split.
  - intros lb Hlb. pose proof (labelled_map idx (val_of 0 idx params) lb Hlb) as L.
    rewrite <- (val_of_map 0 idx params Hnd Hl) in L. exact L.
  - intros lb. clear Hnd. revert params Hl. induction idx as [|a idx IH]; intros [|x params] Hl Hlb; try reflexivity.
    cbn [val_of]. destruct (label_eq_dec lb a) as [->|_]; [destruct Hlb; now left|].
    apply IH; [now injection Hl|]. intros F. apply Hlb. now right.
Qed.

(** A model with three periods, two measurements per period and two mixture elements,
    and the data of one of its individuals. *)
Definition two_data (id : Z) (t : nat) (x : string) : option R :=
  value 1 two_model (real_frame two_df) [0; 1; 2]%Z id t x.

Lemma two_data_ok id : individual_data two_model 3 (real_frame two_df) [0; 1; 2]%Z id (two_data id).
Proof.
  intros t x Ht. split; [|reflexivity]. intros [(c & Hc & _) _]. destruct Hc.
Qed.

Lemma two_linear_setting nan neg_inf : exists ar ps,
  linear_setting nan neg_inf (fun _ _ _ _ => Ok 0) two_model two_p 3 (real_frame two_df) [1; 2]%Z [0; 1; 2]%Z ar two_params ps
    (val_of 0 (params_index_of two_p) two_params).
Proof.
  destruct two_example as (ar & ps & H). exists ar, ps.
  assert (Hnd : NoDup (params_index_of two_p)) by exact (idx_NoDup two_model two_p (proj1 two_setting) two_good_names two_model_accepted).
  assert (V : forall lb, In lb (params_index_of two_p) -> val_of 0 (params_index_of two_p) two_params lb = two_value lb)
    by (intros lb; apply val_of_values, Hnd).
  assert (W : forall e, (e < n_mixtures_of two_model)%nat ->
            val_of 0 (params_index_of two_p) two_params (CMixWeights, O, mixture_name e, "-"%string) = / 2).
  { intros e He. rewrite V; [reflexivity|]. change (n_mixtures_of two_model) with 2%nat in He.
    destruct e as [|[|e]]; [| |lia]; apply label_mem_In; vm_compute; reflexivity. }
  split; [intros ? ? ? ?; now eexists|]. split; [exact H|]. split; [|split; [|split; [|split; [|split; [|split; [|split; [|split]]]]]]].
  - split; [reflexivity|]. intros f fs [[= <- <-]|[]]. reflexivity.
  - intros t Ht. exists "a"%string. destruct t as [|[|[|t]]]; [vm_compute; tauto..|lia].
  - now left.
  - replace (o_sigma_points_scale (p_options two_p)) with 2%Q by (vm_compute; reflexivity). unfold Q2R. cbn. lra.
  - apply parameter_values_exist; [exact Hnd|apply map_length].
  - intros t v Hin. rewrite V by exact Hin. cbn. lra.
  - intros t f Hin. rewrite V by exact Hin. cbn. lra.
  - intros e f Hin. rewrite V by exact Hin. cbn. lra.
  - split; [intros e He; rewrite W by exact He; lra|].
    rewrite (rsum_ext _ _ (fun _ => / 2)) by exact W. change (n_mixtures_of two_model) with 2%nat. cbn. lra.
Qed.

Example C70_C71_nonvacuous : forall nan neg_inf, exists ar ps,
  correct_qr gram_schmidt /\
  linear_setting nan neg_inf (fun _ _ _ _ => Ok 0) two_model two_p 3 (real_frame two_df) [1; 2]%Z [0; 1; 2]%Z ar two_params ps
    (val_of 0 (params_index_of two_p) two_params) /\
  nth_error [1; 2]%Z 1 = Some 2%Z /\
  individual_data two_model 3 (real_frame two_df) [0; 1; 2]%Z 2 (two_data 2) /\
  two_data 2 1 "a" = Some 9 /\ nth_error (equations two_model 3) 2 = Some (1%nat, "a"%string) /\
  entries_before (length (latent_of two_model)) 3 = [(0, 0); (1, 0); (2, 0)]%nat.
Proof.
  intros nan neg_inf. destruct (two_linear_setting nan neg_inf) as (ar & ps & H). exists ar, ps.
  split; [exact gram_schmidt_correct|]. split; [exact H|]. split; [reflexivity|]. split; [apply two_data_ok|].
  split; [reflexivity|]. split; [vm_compute; reflexivity|reflexivity].
Qed.

(** The same specification with another scale of the sigma points and without clipping,
    and a decomposition with other signs. *)
Definition two_model' : model_dict :=
  mk_md (md_factors two_model) None None None None
    (Some (mk_opts (Some 2%nat) (Some (5 # 2)%Q) None None (Some None) None None None)).
Definition two_p' : processed := get_ok (process_model two_model') small_p.
Lemma two_model'_accepted : process_model two_model' = Ok two_p'.
Proof. vm_compute. reflexivity. Qed.

Definition minus_gram_schmidt : qr_function := fun m n a i j => - gram_schmidt m n a i j.
Lemma minus_gram_schmidt_correct : correct_qr minus_gram_schmidt.
Proof.
  intros m n a Hm. destruct (gram_schmidt_correct m n a Hm) as (U & q & Q1 & Q2). split.
  - intros r c Hr Hc Hlt. unfold minus_gram_schmidt. rewrite (U r c Hr Hc Hlt). ring.
  - exists (fun i j => - q i j). split.
    + intros j k Hj Hk. rewrite <- (Q1 j k Hj Hk). apply rsum_ext. intros; ring.
    + intros i j Hi Hj. rewrite (Q2 i j Hi Hj). apply rsum_ext. intros; unfold minus_gram_schmidt; ring.
Qed.

Lemma two'_setting : data_setting two_model' two_p' 3 two_df [1; 2]%Z [0; 1; 2]%Z.
Proof.
  destruct two_setting as (A & _ & B & C & D & E & F). split; [|split; [exact two_model'_accepted|]].
  - destruct A as [A1 A2]. split; [exact A1|exact A2].
  - split; [exact B|]. split; [exact C|]. split; [exact D|]. split; [exact E|exact F].
Qed.

Lemma two'_linear_setting nan neg_inf : exists ar ps,
  linear_setting nan neg_inf (fun _ _ _ _ => Ok 0) two_model' two_p' 3 (real_frame two_df) [1; 2]%Z [0; 1; 2]%Z ar two_params ps
    (val_of 0 (params_index_of two_p) two_params).
Proof.
  assert (Ei : params_index_of two_p' = params_index_of two_p) by (vm_compute; reflexivity).
  destruct (two_linear_setting nan neg_inf) as (ar0 & ps0 & S).
  destruct (real_process two_model' two_p' 3 two_df [1; 2]%Z [0; 1; 2]%Z
              (get_ok (process_data 1%Z Z.eqb two_df (p_labels two_p') (p_update two_p') (p_anch two_p') true)
                 ex_arrays) two'_setting) as [ar Har].
  { vm_compute. reflexivity. }
  assert (Hl : length two_params = length (params_index_of two_p')) by (rewrite Ei; apply map_length).
  destruct (C09_parsing_succeeds R 0%R 1%R ln two_model' two_p' 3 2 two_params) as [ps Hps].
  - apply two'_setting.
  - apply (idx_NoDup two_model' two_p'); [apply two'_setting|exact two_good_names|exact two_model'_accepted].
  - exact two_model'_accepted.
  - apply two'_setting.
  - exact Hl.
  - split; [intros f o []|]. split; [constructor|]. intros t f o g [].
  - lia.
  - apply Nat.leb_le. reflexivity.
  - exists ar, ps. destruct S as (S1 & _ & S3 & S4 & S5 & _ & S7 & S8).
    split; [exact S1|]. split; [|split; [|split; [|split; [|split; [|split]]]]].
    + split; [apply real_setting, two'_setting|]. split; [exact two_good_names|].
      split; [exact Har|]. split; [exact Hl|exact Hps].
    + exact S3.
    + exact S4.
    + exact S5.
    + replace (o_sigma_points_scale (p_options two_p')) with (5 # 2)%Q by (vm_compute; reflexivity). unfold Q2R. cbn. lra.
    + rewrite Ei. exact S7.
    + rewrite Ei. exact S8.
Qed.

Example C70_choices_nonvacuous : forall nan neg_inf, exists ar ps ar' ps',
  correct_qr gram_schmidt /\ correct_qr minus_gram_schmidt /\ same_model two_model two_model' /\
  o_sigma_points_scale (p_options two_p) = 2%Q /\ o_sigma_points_scale (p_options two_p') = (5 # 2)%Q /\
  linear_setting nan neg_inf (fun _ _ _ _ => Ok 0) two_model two_p 3 (real_frame two_df) [1; 2]%Z [0; 1; 2]%Z ar two_params ps
    (val_of 0 (params_index_of two_p) two_params) /\
  linear_setting nan neg_inf (fun _ _ _ _ => Ok 0) two_model' two_p' 3 (real_frame two_df) [1; 2]%Z [0; 1; 2]%Z ar' two_params ps'
    (val_of 0 (params_index_of two_p) two_params).
Proof.
  intros nan neg_inf. destruct (two_linear_setting nan neg_inf) as (ar & ps & H).
  destruct (two'_linear_setting nan neg_inf) as (ar' & ps' & H'). exists ar, ps, ar', ps'.
  split; [exact gram_schmidt_correct|]. split; [exact minus_gram_schmidt_correct|]. split; [repeat split; reflexivity|].
  split; [vm_compute; reflexivity|]. split; [vm_compute; reflexivity|]. split; [exact H|exact H'].
Qed.
