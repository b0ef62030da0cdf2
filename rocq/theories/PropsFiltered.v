(** Theorems about the filtered states, continued (C48, C51). *)
Require Import Reals Qreals String Arith ZArith Bool List Lia Lra Sorted.
From Verif Require Import PyBase ListFacts StringFacts ModelSpec ProcessModel CheckModel SpecModel ProcessModelFacts
  SpecParse SpecIndex IndexFacts ParamsIndex ParseParams ParamsVec ExampleModels PropsSpec ParseFacts AnchorFacts PropsParse
  ProcessData SpecData PropsData RSum Kalman SpecKalman KalmanFacts KalmanSeq QRWitness Clipping Likelihood
  SpecLikelihood PredictFacts ScheduleFacts LikelihoodFacts LikelihoodRun PropsKalman PropsLikelihood
  DebugData SpecDebug DebugFacts PropsDebug.
Import ListNotations.
Open Scope string_scope.
Open Scope list_scope.
Open Scope nat_scope.

(** * C48: the filtered state is an average *)

Lemma run_weights qr nan tfunc n_obs nm nl no nc kappa inp i :
  correct_qr qr -> 1 <= nm -> forall evs b recs,
  (forall k, In k (equation_numbers evs) -> in_sd inp k <> 0%R) ->
  rsum nm (fun m => exp (be_logw b i m)) = 1%R ->
  run qr nan tfunc n_obs nm nl no nc kappa inp evs b = Ok recs ->
  Forall (fun r => rsum nm (fun m => exp (re_logw r i m)) = 1%R) recs.
Proof.
  intros Hqr Hnm.
  assert (Hup : forall a k t b, in_sd inp k <> 0%R -> rsum nm (fun m => exp (be_logw b i m)) = 1%R ->
            rsum nm (fun m => exp (be_logw (fst (update_event qr nan nm nl nc inp a k t b)) i m)) = 1%R /\
            rsum nm (fun m => exp (re_logw (snd (update_event qr nan nm nl nc inp a k t b)) i m)) = 1%R).
  { intros a k t b Hsd Hw.
    pose proof (C32_normalized qr Hqr nan nm nl nc (in_controls inp t)
      [mk_meas (in_loadings inp k) (in_control_params inp k) (in_sd inp k) (in_values inp k)]
      (mk_fstate (be_states b) (be_chols b) (be_logw b) (fun _ => 0%R)) i Hnm
      ltac:(constructor; [exact Hsd|constructor]) Hw) as H. split; exact H. }
  induction evs as [|[k t|k t|t] evs IH]; intros b recs Hsd Hw E; cbn [run] in E.
  - injection E as <-. constructor.
  - apply rbind_ok in E as (rest & Er & E). injection E as <-.
    destruct (Hup false k t b) as [H1 H2]; [apply Hsd; now left|exact Hw|].
    constructor; [exact H2|]. refine (IH _ _ _ H1 Er). intros k' Hk'. apply Hsd. now right.
  - apply rbind_ok in E as (rest & Er & E). injection E as <-.
    destruct (Hup true k t b) as [H1 H2]; [apply Hsd; now left|exact Hw|].
    constructor; [exact H2|]. refine (IH _ _ _ H1 Er). intros k' Hk'. apply Hsd. now right.
  - apply rbind_ok in E as (b' & Et & E). refine (IH _ _ Hsd _ E).
    unfold transition_event in Et. apply rbind_ok in Et as (sc & _ & Et). injection Et as <-. exact Hw.
Qed.

Lemma rsum_between nm (w x : nat -> R) lo hi :
  (forall m, m < nm -> (0 <= w m /\ lo <= x m <= hi)%R) -> rsum nm w = 1%R ->
  (lo <= rsum nm (fun m => w m * x m) <= hi)%R.
Proof.
  intros H Hw.
  assert (G : (lo * rsum nm w <= rsum nm (fun m => w m * x m) <= hi * rsum nm w)%R).
  { clear Hw. induction nm as [|nm IH]; cbn [rsum]; [lra|].
    destruct IH as [I1 I2]; [intros m Hm; apply H; lia|].
    destruct (H nm ltac:(lia)) as [W [X1 X2]]. split; nra. }
  rewrite Hw in G. lra.
Qed.

(** Parameters as in the documentation: positive standard deviations of the
    measurements, positive mixture weights that sum to one. *)
Definition proper_parameters (md : model_dict) (idx : list label) (params : list R) : Prop :=
  (forall t v x, labelled idx params (CMeasSds, t, v, "-") x -> (0 < x)%R) /\
  exists w : nat -> R,
    (forall e, e < n_mixtures_of md -> (0 < w e)%R /\ labelled idx params (CMixWeights, 0, mixture_name e, "-") (w e)) /\
    rsum (n_mixtures_of md) w = 1%R.

Lemma labelled_fun {A} idx (vec : list A) lb x y : NoDup idx ->
  labelled idx vec lb x -> labelled idx vec lb y -> x = y.
Proof.
  intros Hnd (i & Hi & Hx) (j & Hj & Hy).
  assert (i = j); [|congruence].
  apply (proj1 (NoDup_nth_error idx) Hnd); [|congruence]. apply nth_error_Some. congruence.
Qed.

(** Along the schedule, the mixture weights of every individual sum to one; hence the
    filtered state of a factor lies between the smallest and the largest state of the
    factor over the mixture elements. *)
Theorem C48_weighted_average :
  forall qr nan tfunc md p n df ids lv ar params ps recs,
    correct_qr qr -> likelihood_setting md p n df ids lv ar params ps ->
    proper_parameters md (params_index_of p) params -> every_period_measured md n ->
    run_model qr nan tfunc p (length ids) ps ar (schedule md n) = Ok recs ->
    forall k rec i, nth_error recs k = Some rec -> i < length ids ->
      rsum (n_mixtures_of md) (fun m => exp (re_logw rec i m)) = 1%R /\
      forall row j f lo hi,
        shows_average md rec i row -> nth_error (latent_of md) j = Some f ->
        (forall m, m < n_mixtures_of md -> (lo <= re_states rec i m j <= hi)%R) ->
        exists x, row f = CNum x /\ (lo <= x <= hi)%R.
Proof.
  intros qr nan tfunc md p n df ids lv ar params ps recs Hqr H [Hsd (w & Hw & Hsum)] Hev Er k rec i Hk Hi.
  assert (Hwf : wf_dicts md) by apply H. assert (Hp : process_model md = Ok p) by apply H.
  assert (Hn : has_n_periods md n) by apply H. assert (Hg : good_names md) by apply H.
  assert (Hlen : length params = length (params_index_of p)) by apply H.
  assert (Hps : parse_for 0%R 1%R ln p params (length ids) = Ok ps) by apply H.
  assert (Hnm : 1 <= n_mixtures_of md).
  { destruct (n_mixtures_of md); [cbn [rsum] in Hsum; lra|lia]. }
  destruct (p_dims_eq md p Hp) as (_ & _ & _ & Dm & _ & _).
  rewrite <- (schedule_code md p n Hwf Hp Hn Hev) in Er. unfold run_model in Er. rewrite Dm in Er.
  assert (Hone : rsum (n_mixtures_of md) (fun m => exp (re_logw rec i m)) = 1%R).
  { refine (proj1 (Forall_forall _ _) (run_weights _ _ _ _ _ _ _ _ _ _ i Hqr Hnm _ _ _ _ _ Er) rec
              (nth_error_In _ _ Hk)).
    - intros k0 Hk0. rewrite code_events_numbers in Hk0. apply in_seq in Hk0.
      destruct (C09_measurement_parameters R 0%R 1%R ln md p n (length ids) params ps Hwf (idx_NoDup md p Hwf Hg Hp) Hp Hn Hlen Hps)
        as (_ & _ & _ & _ & Heq & _).
      assert (Hl : k0 < length (equations md n)).
      { rewrite (equations_update md p n Hwf Hp Hn), map_length. unfold purposes in Hk0. rewrite map_length in Hk0. lia. }
      destruct (nth_error (equations md n) k0) as [[t v]|] eqn:Ek; [|apply nth_error_None in Ek; lia].
      destruct (Heq k0 t v Ek) as (_ & _ & x & Hx & Hlab).
      unfold inputs_of. cbn [in_sd]. unfold arr1. erewrite nth_error_nth by exact Hx.
      apply Rgt_not_eq. exact (Hsd t v x Hlab).
    - destruct (C10_initial_distribution R 0%R 1%R ln md p n (length ids) params ps Hwf (idx_NoDup md p Hwf Hg Hp) Hp Hn Hlen Hps)
        as (_ & _ & _ & Hinit).
      destruct (Hinit i Hi) as (st & ch & we & _ & _ & Hwe & _ & _ & Lw & He).
      rewrite <- Hsum. apply rsum_ext. intros m Hm. destruct (He m Hm) as ((x & Hx & Hlab) & _).
      destruct (Hw m Hm) as [Hpos Hlab'].
      unfold initial_belief. cbn [be_logw]. unfold arr2, arr1.
      erewrite (nth_error_nth (ps_log_weights ps)) by exact Hwe. erewrite nth_error_nth by exact Hx.
      assert (NoDup (params_index_of p)) as Hnd.
      { exact (idx_NoDup md p Hwf Hg Hp). }
      rewrite (labelled_fun _ _ _ _ _ Hnd Hlab Hlab'). now apply exp_ln. }
  split; [exact Hone|]. intros row j f lo hi Hrow Hj Hb.
  eexists. split; [apply (Hrow j f Hj)|].
  apply (rsum_between (n_mixtures_of md) (fun m => exp (re_logw rec i m))); [|exact Hone].
  intros m Hm. split; [apply Rlt_le, exp_pos|apply Hb, Hm].
Qed.
Print Assumptions C48_weighted_average.

(** A model with two mixture elements and measurements in all periods. *)
Definition two_model : model_dict :=
  mk_md [("cog", mk_factor [["a"; "b"]; ["a"; "b"]; ["a"; "b"]] (TStr "linear")
            (Some (mk_norm (Some [[("a", 1%Q)]; [("a", 1%Q)]; [("a", 1%Q)]]) None)))]
    None None None None (Some (mk_opts (Some 2) None None None None None None None)).
Definition two_p : processed := get_ok (process_model two_model) small_p.
Lemma two_model_accepted : process_model two_model = Ok two_p.
Proof. vm_compute. reflexivity. Qed.

Definition two_df : frame Z :=
  mk_frame ["a"; "b"]%string [1; 2]%Z [0; 1; 2]%Z
    [mk_drow 1 0 (cells [("a", 1); ("b", 2)]%string); mk_drow 1 1 (cells [("a", 7); ("b", 1)]%string);
     mk_drow 1 2 (cells [("a", 3); ("b", 4)]%string);
     mk_drow 2 0 (cells [("a", 2); ("b", 3)]%string); mk_drow 2 1 (cells [("a", 9); ("b", 8)]%string);
     mk_drow 2 2 (cells [("a", 5); ("b", 6)]%string)]%Z.

Lemma two_periods : has_n_periods two_model 3.
Proof.
  split; [eexists _, _; split; [left; reflexivity|reflexivity]|].
  intros f fs [[= <- <-]|[]]. simpl. lia.
Qed.

Lemma two_setting : data_setting two_model two_p 3 two_df [1; 2]%Z [0; 1; 2]%Z.
Proof.
  split; [|split; [exact two_model_accepted|split; [|split; [|split; [|split]]]]].
  - split; [repeat constructor; simpl; intuition|]. intros a o H. discriminate.
  - exact two_periods.
  - split; [constructor|]. intros fo [].
  - intros r Hr. repeat (destruct Hr as [<-|Hr]; [simpl; tauto|]). destruct Hr.
  - split; [repeat constructor|]. intros z. split.
    + intros [<-|[<-|[]]].
      * eexists. split; [left; reflexivity|reflexivity].
      * eexists. split; [do 3 right; left; reflexivity|reflexivity].
    + intros (r & Hr & <-). repeat (destruct Hr as [<-|Hr]; [simpl; tauto|]). destruct Hr.
  - split; [repeat constructor|]. intros z. reflexivity.
Qed.

Lemma two_good_names : good_names two_model.
Proof.
  unfold good_names, without_char. repeat split.
  - repeat constructor; simpl; intuition discriminate.
  - simpl. intros f H. intuition subst; simpl in *; intuition discriminate.
  - simpl in H. intuition subst; simpl in *; intuition discriminate.
  - simpl in *. intuition subst; intuition discriminate.
  - intros g. simpl in H. intuition subst; discriminate.
  - repeat constructor; simpl; intuition.
  - simpl. intuition discriminate.
  - intros f fs n names [[= <- <-]|[]] E; simpl in E; discriminate.
Qed.

Definition two_value (lb : label) : R :=
  match lb with (CMixWeights, _, _, _) => / 2 | _ => 1 end%R.
Definition two_params : list R := map two_value (params_index_of two_p).

Lemma labelled_values (idx : list label) (val : label -> R) lb x :
  labelled idx (map val idx) lb x <-> In lb idx /\ x = val lb.
Proof.
  split.
  - intros (i & Hi & Hx). split; [eapply nth_error_In, Hi|].
    erewrite map_nth_error in Hx by exact Hi. congruence.
  - intros [H ->]. apply In_nth_error in H as [i Hi]. exists i. split; [exact Hi|]. now apply map_nth_error.
Qed.

Lemma two_proper : proper_parameters two_model (params_index_of two_p) two_params.
Proof.
  split.
  - intros t v x H. apply labelled_values in H as [_ ->]. simpl. lra.
  - exists (fun _ => (/ 2)%R). split.
    + intros e He. split; [lra|]. apply labelled_values. split; [|reflexivity].
      change (n_mixtures_of two_model) with 2 in He.
      destruct e as [|[|e]]; [| |lia]; apply (label_mem_In); vm_compute; reflexivity.
    + vm_compute n_mixtures_of. cbn [rsum]. lra.
Qed.

Lemma two_example : exists ar ps,
  likelihood_setting two_model two_p 3 (real_frame two_df) [1; 2]%Z [0; 1; 2]%Z ar two_params ps.
Proof.
  destruct (real_process two_model two_p 3 two_df [1; 2]%Z [0; 1; 2]%Z
              (get_ok (process_data 1%Z Z.eqb two_df (p_labels two_p) (p_update two_p) (p_anch two_p) true)
                 ex_arrays) two_setting) as [ar Har].
  { vm_compute. reflexivity. }
  assert (Hl : length two_params = length (params_index_of two_p)) by apply map_length.
  destruct (C09_parsing_succeeds R 0%R 1%R ln two_model two_p 3 2 two_params) as [ps Hps].
  - apply two_setting.
  - apply (idx_NoDup two_model two_p); [apply two_setting|exact two_good_names|exact two_model_accepted].
  - exact two_model_accepted.
  - exact two_periods.
  - exact Hl.
  - split; [intros f o []|]. split; [constructor|]. intros t f o g [].
  - lia.
  - apply Nat.leb_le. reflexivity.
  - exists ar, ps. split; [apply real_setting, two_setting|]. split; [exact two_good_names|].
    split; [exact Har|]. split; [exact Hl|exact Hps].
Qed.

Lemma two_measured : every_period_has_measurement two_model 3.
Proof. intros t Ht. exists "a". destruct t as [|[|[|t]]]; [vm_compute; tauto..|lia]. Qed.

Lemma ok_inj {A} (a b : A) : Ok a = Ok b -> a = b.
Proof. now intros [= H]. Qed.

Lemma ok_not_err {A} (a : A) e : Ok a <> Err e.
Proof. discriminate. Qed.

Example C48_nonvacuous : forall nan tfunc, exists ar ps recs tables f,
  correct_qr gram_schmidt /\
  likelihood_setting two_model two_p 3 (real_frame two_df) [1; 2]%Z [0; 1; 2]%Z ar two_params ps /\
  proper_parameters two_model (params_index_of two_p) two_params /\
  every_period_has_measurement two_model 3 /\ n_mixtures_of two_model = 2 /\
  ~ In "period" (latent_of two_model) /\ ~ In "id" (latent_of two_model) /\
  run_model gram_schmidt nan tfunc two_p 2 ps ar (schedule two_model 3) = Ok recs /\
  debug_loglike gram_schmidt nan tfunc two_model (real_frame two_df) = Ok f /\
  f (combine (params_index_of two_p) two_params) = Ok tables.
Proof.
  intros nan tfunc. destruct two_example as (ar & ps & H).
  assert (Hv : get_params_vec (combine (params_index_of two_p) two_params) (params_index_of two_p) = Ok two_params).
  { apply get_params_vec_self. apply map_length. }
  assert (N1 : ~ In "period" (latent_of two_model)) by (simpl; intuition discriminate).
  assert (N2 : ~ In "id" (latent_of two_model)) by (simpl; intuition discriminate).
  destruct (C48_filtered_states_partial gram_schmidt nan tfunc _ _ _ _ _ _ _ _ _ _ H Hv two_measured N1 N2)
    as (f & Ef & Herr & Hok).
  assert (Hfit : shapes_fit 2 (n_mixtures (p_dims two_p)) (n_observed (p_dims two_p)) = true).
  { vm_compute. reflexivity. }
  destruct (f (combine (params_index_of two_p) two_params)) as [tables|e] eqn:E.
  - destruct (Hok tables eq_refl) as (recs & Er & _). exists ar, ps, recs, tables, f.
    repeat (split; [first [exact gram_schmidt_correct|exact H|exact two_proper|exact two_measured|reflexivity|assumption]|]).
    exact E.
  - specialize (Herr e eq_refl).
    destruct (likelihood_events gram_schmidt nan tfunc _ _ _ _ _ _ _ _ _ true H Hfit)
      as (recs & out & _ & _ & Eo & _). rewrite Eo in Herr. exfalso. exact (ok_not_err _ _ Herr).
Qed.

(** Refutation: in a model whose second period has no equations, the rows labelled
    with that period show the states of the third period, and no row is labelled with
    the third period. *)
Theorem C48_refuted :
  exists md p, wf_dicts md /\ good_names md /\ process_model md = Ok p /\ has_n_periods md 3 /\
    (forall v, ~ In (1, v) (equations md 3)) /\
    last_measurement_of md 3 2 3 /\
    forall n_obs out dbg, exists tables, process_debug_data p n_obs out dbg = Ok tables /\
      (forall row, In row (tb_rows (dt_filtered_states tables)) -> row "period" <> CInt 2) /\
      forall i, i < n_obs -> exists row,
        In row (tb_rows (dt_filtered_states tables)) /\ row "period" = CInt 1 /\ row "id" = CInt i /\
        row "cog" = CNum (rsum (n_mixtures_of md)
                            (fun m => do_filtered_states dbg 3 i m 0%nat * exp (do_logw dbg 3 i m)))%R.
Proof.
  exists gap_model, gap_p. split; [apply gap_setting|]. split; [exact gap_good_names|].
  split; [exact gap_model_accepted|]. split; [apply gap_setting|]. split.
  { intros v. vm_compute. intuition discriminate. }
  split.
  { split; [exists "b"; split; reflexivity|]. intros k' v' Hk' E.
    assert (k' < 4) by (change 4 with (length (equations gap_model 3)); apply nth_error_Some; congruence). lia. }
  intros n_obs out dbg.
  assert (Hnd : NoDup (latent_of gap_model)) by (repeat constructor; simpl; intuition).
  destruct (filtered_states_table n_obs 1 1 (latent_of gap_model) Hnd eq_refl
              (do_filtered_states dbg) (do_logw dbg) (p_update gap_p) [1; 3] eq_refl ltac:(discriminate)
              ltac:(simpl; intuition discriminate) ltac:(simpl; intuition discriminate))
    as (tf & Etf & Hc & Hl & Hrows). cbn [length] in Hl.
  assert (Hrow : forall row, In row (tb_rows tf) -> exists t, t < 2 /\ row "period" = CInt t).
  { intros row Hrow. apply In_nth_error in Hrow as [q Hq].
    assert (Hlt : q < 2 * n_obs). { rewrite <- Hl. apply nth_error_Some. congruence. }
    destruct (Nat.lt_ge_cases q n_obs) as [Hq1|Hq1].
    - destruct (Hrows 0 1 q eq_refl Hq1) as (row' & Hr' & Hp' & _). cbn in Hr'. rewrite Hq in Hr'.
      injection Hr' as <-. eauto.
    - destruct (Hrows 1 3 (q - n_obs) eq_refl ltac:(lia)) as (row' & Hr' & Hp' & _).
      replace (1 * n_obs + (q - n_obs)) with q in Hr' by lia. rewrite Hq in Hr'. injection Hr' as <-. eauto. }
  unfold process_debug_data.
  change (l_latent (p_labels gap_p)) with (latent_of gap_model).
  change (n_mixtures (p_dims gap_p)) with 1. change (n_latent (p_dims gap_p)) with 1.
  assert (Hne : p_update gap_p <> []) by (vm_compute; discriminate).
  destruct (post_states_total n_obs 1 1 (latent_of gap_model) eq_refl
              (do_filtered_states dbg) (p_update gap_p) Hne) as (t1 & ->). cbn [rbind].
  rewrite Etf. cbn [rbind].
  destruct (C50_ranges_exist tf (latent_of gap_model)) as [rg ->].
  { rewrite Hc. simpl. tauto. }
  { intros row Hr. destruct (Hrow row Hr) as (t & _ & E). eauto. }
  { intros f Hf. split; [rewrite Hc; apply in_or_app; now left|]. intros ->. simpl in Hf. intuition discriminate. }
  cbn [rbind].
  destruct (residuals_table n_obs 1 (do_residuals dbg) (p_update gap_p) Hne) as (t2 & -> & _). cbn [rbind].
  destruct (residuals_table n_obs 1 (do_residual_sds dbg) (p_update gap_p) Hne) as (t3 & -> & _). cbn [rbind].
  destruct (contributions_table n_obs (do_all_contributions dbg) (p_update gap_p) Hne) as (t4 & -> & _). cbn [rbind].
  eexists. split; [reflexivity|]. cbn [dt_filtered_states]. split.
  - intros row Hr E. destruct (Hrow row Hr) as (t & Ht & E'). rewrite E in E'. injection E' as <-. lia.
  - intros i Hi. destruct (Hrows 1 3 i eq_refl Hi) as (row & H1 & H2 & H3 & H4).
    exists row. split; [eapply nth_error_In, H1|]. split; [exact H2|]. split; [exact H3|]. apply (H4 0 "cog" eq_refl).
Qed.
Print Assumptions C48_refuted.

(** The same model with anchoring: now the second period has an anchoring equation but
    no measurement, and the debug data cannot be processed at all. *)
Definition anchored_gap_model : model_dict :=
  mk_md (md_factors gap_model) None None None
    (Some (mk_anch (Some [("cog", "Q1")]) None None None None)) (md_options gap_model).
Definition anchored_gap_p : processed := get_ok (process_model anchored_gap_model) small_p.

Theorem C48_refuted_crash :
  exists md p, wf_dicts md /\ good_names md /\ process_model md = Ok p /\ clean_anchoring md /\
    every_period_measured md 3 /\
    forall n_obs out dbg, process_debug_data p n_obs out dbg = Err IndexError.
Proof.
  exists anchored_gap_model, anchored_gap_p. split.
  { split; [repeat constructor; simpl; intuition|]. intros a o [= <-] [= <-]. repeat constructor. intros []. }
  split; [exact gap_good_names|]. split; [vm_compute; reflexivity|]. split; [|split].
  - split; [intros f o [[= <- <-]|[]]; now left|]. split; [repeat constructor; intros []|].
    intros t f o g [[= <- <-]|[]] (fs & ms & [[= <- <-]|[]] & Hms & Hv). simpl in Hms.
    destruct t as [|[|[|t]]]; simpl in Hms; [| | |destruct t; discriminate]; injection Hms as <-;
      simpl in Hv; repeat (destruct Hv as [Hv|Hv]; [discriminate Hv|]); destruct Hv.
  - intros t Ht. exists "Q1_cog". destruct t as [|[|[|t]]]; [vm_compute; tauto..|lia].
  - intros n_obs out dbg. unfold process_debug_data.
    change (l_latent (p_labels anchored_gap_p)) with (latent_of gap_model).
    change (n_mixtures (p_dims anchored_gap_p)) with 1. change (n_latent (p_dims anchored_gap_p)) with 1.
    destruct (post_states_total n_obs 1 1 (latent_of gap_model) eq_refl
                (do_filtered_states dbg) (p_update anchored_gap_p) ltac:(vm_compute; discriminate)) as (t1 & ->).
    cbn [rbind]. unfold create_filtered_states.
    replace (keep_updates (p_update anchored_gap_p)) with (@Err (list nat) IndexError) by (vm_compute; reflexivity).
    reflexivity.
Qed.
Print Assumptions C48_refuted_crash.

Example C49_nonvacuous : forall out dbg, exists tables,
  wf_dicts two_model /\ process_model two_model = Ok two_p /\ has_n_periods two_model 3 /\
  (forall c, In c reserved_columns -> ~ In c (latent_of two_model)) /\ 2 <= n_mixtures_of two_model /\
  process_debug_data two_p 2 out dbg = Ok tables /\
  nth_error (equations two_model 3) 4 = Some (2, "a").
Proof.
  intros out dbg.
  destruct (debug_total two_model two_p 3 2 out dbg) as (tables & E & _).
  - apply two_setting.
  - exact two_model_accepted.
  - exact two_periods.
  - lia.
  - exact two_measured.
  - simpl. intuition discriminate.
  - simpl. intuition discriminate.
  - exists tables. split; [apply two_setting|]. split; [exact two_model_accepted|]. split; [exact two_periods|].
    split; [|split; [apply Nat.leb_le; reflexivity|split; [exact E|reflexivity]]].
    intros c Hc Hin. simpl in Hc, Hin. intuition (subst; discriminate).
Qed.

(** * C51 *)

Definition value_in (params : list (label * R)) (lb : label) : R :=
  match find (fun row => label_eqb lb (fst row)) params with Some row => snd row | None => 0%R end.

Lemma value_in_has params lb : In lb (map fst params) -> has_value params lb (value_in params lb).
Proof.
  unfold has_value, value_in. intros H. destruct (find _ params) as [[lb' x]|] eqn:E.
  - apply find_some in E as [Hin He]. simpl in He. apply label_eqb_spec in He. subst lb'. exact Hin.
  - apply in_map_iff in H as (row & <- & Hr). apply (find_none _ _ E) in Hr.
    rewrite (proj2 (label_eqb_spec _ _) eq_refl) in Hr. discriminate.
Qed.

Lemma filter_label params lb : NoDup (map fst params) -> In lb (map fst params) ->
  filter (fun row => label_eqb lb (fst row)) params = [(lb, value_in params lb)].
Proof.
  unfold value_in. induction params as [|[l x] params IH]; intros Hnd Hin; [destruct Hin|].
  simpl in Hnd. inversion Hnd as [|? ? Hno Hnd']; subst. cbn [filter find fst].
  destruct (label_eqb lb l) eqn:E.
  - apply label_eqb_spec in E as <-. simpl. f_equal.
    assert (G : forall rows : list (label * R), ~ In lb (map fst rows) -> filter (fun row => label_eqb lb (fst row)) rows = []).
    { clear. induction rows as [|[l y] rows IH]; intros H; [reflexivity|]. cbn [filter fst].
      destruct (label_eqb lb l) eqn:E; [apply label_eqb_spec in E; subst; exfalso; apply H; now left|].
      apply IH. intros H'. apply H. now right. }
    now apply G.
  - destruct Hin as [Hin|Hin]; [simpl in Hin; subst l; rewrite (proj2 (label_eqb_spec _ _) eq_refl) in E; discriminate|].
    now apply IH.
Qed.

Lemma loc_rows_ok params idx : NoDup (map fst params) -> (forall lb, In lb idx -> In lb (map fst params)) ->
  loc_rows params idx = Ok (map (fun lb => (lb, value_in params lb)) idx).
Proof.
  intros Hnd H. unfold loc_rows.
  rewrite (mapM_all_ok _ (fun lb => [(lb, value_in params lb)])).
  2:{ intros lb Hlb. rewrite filter_label by auto. reflexivity. }
  cbn [rbind]. f_equal. clear H. induction idx as [|lb idx IH]; [reflexivity|]. simpl. now rewrite IH.
Qed.

Lemma set_column_row name values tb r row : nth_error (tb_rows tb) r = Some row ->
  exists row', nth_error (tb_rows (set_column name values tb)) r = Some row' /\
    row' name = values r /\ forall c, c <> name -> row' c = row c.
Proof.
  intros H. unfold set_column. cbn [tb_rows]. rewrite nth_error_map, nth_error_enumerate, H. cbn [option_map].
  eexists. split; [reflexivity|]. cbn [fst snd]. split.
  - now rewrite String.eqb_refl.
  - intros c Hc. apply String.eqb_neq in Hc. now rewrite Hc.
Qed.

Definition anchor_step (tb : table) (carr sarr : list (list R)) (acc : result table) (pf : nat * string)
  : result table :=
  do out <- acc;
  do column <- get_column tb (snd pf);
  do values <- mapM (fun rc =>
      do c <- nth_err (nth (fst rc) carr []) (fst pf);
      do s <- nth_err (nth (fst rc) sarr []) (fst pf);
      affine_cell c s (snd rc)) (enumerate column);
  Ok (set_column (snd pf) (fun r => nth r values CNan) out).

Definition anchors_cell (carr sarr : list (list R)) (r j : nat) (c0 c1 : cell) : Prop :=
  exists c s, nth_error (nth r carr []) j = Some c /\ nth_error (nth r sarr []) j = Some s /\
    affine_cell c s c0 = Ok c1.

Lemma anchor_step_ok tb carr sarr acc pf :
  In (snd pf) (tb_columns tb) -> In (snd pf) (tb_columns acc) ->
  (forall r row, nth_error (tb_rows tb) r = Some row -> exists y, anchors_cell carr sarr r (fst pf) (row (snd pf)) y) ->
  exists acc', anchor_step tb carr sarr (Ok acc) pf = Ok acc' /\ tb_columns acc' = tb_columns acc /\
    length (tb_rows acc') = length (tb_rows acc) /\
    forall r row arow, nth_error (tb_rows tb) r = Some row -> nth_error (tb_rows acc) r = Some arow ->
      exists row', nth_error (tb_rows acc') r = Some row' /\
        anchors_cell carr sarr r (fst pf) (row (snd pf)) (row' (snd pf)) /\
        forall c, c <> snd pf -> row' c = arow c.
Proof.
  intros Hin Hina Hall. unfold anchor_step. cbn [rbind]. unfold get_column.
  rewrite (proj2 (smem_In _ _) Hin). cbn [rbind].
  match goal with |- context [mapM ?f (enumerate ?l)] => set (cell_of := f); set (column := l) end.
  destruct (mapM_total cell_of (enumerate column)) as [values Hv].
  { intros [r c0] Hr. apply In_enumerate in Hr. unfold column in Hr. rewrite nth_error_map in Hr.
    destruct (nth_error (tb_rows tb) r) as [row|] eqn:Er; [|discriminate]. injection Hr as <-.
    destruct (Hall r row Er) as (y & c & s & Hc & Hs & Hy). exists y. unfold cell_of. cbn [fst snd].
    unfold nth_err. rewrite Hc, Hs. exact Hy. }
  rewrite Hv. cbn [rbind]. eexists. split; [reflexivity|]. split; [|split].
  - unfold set_column. cbn [tb_columns]. now rewrite (proj2 (smem_In _ _) Hina).
  - unfold set_column. cbn [tb_rows]. now rewrite map_length, enumerate_length.
  - intros r row arow Hr Har.
    destruct (set_column_row (snd pf) (fun r => nth r values CNan) acc r arow Har) as (row' & H1 & H2 & H3).
    exists row'. split; [exact H1|]. split; [|exact H3]. rewrite H2.
    destruct (Hall r row Hr) as (y & c & s & Hc & Hs & Hy).
    assert (Hcol : nth_error (enumerate column) r = Some (r, row (snd pf))).
    { rewrite nth_error_enumerate. unfold column. now rewrite nth_error_map, Hr. }
    destruct (mapM_nth_error cell_of (enumerate column) values r _ Hv Hcol) as (y' & Hn & Hy').
    unfold cell_of in Hy'. cbn [fst snd] in Hy'. unfold nth_err in Hy'. rewrite Hc, Hs in Hy'. cbn [rbind] in Hy'.
    exists c, s. split; [exact Hc|]. split; [exact Hs|].
    rewrite (nth_error_nth values r CNan Hn). exact Hy'.
Qed.

Lemma anchor_fold tb carr sarr : forall pfs acc,
  tb_columns acc = tb_columns tb ->
  length (tb_rows acc) = length (tb_rows tb) ->
  NoDup (map snd pfs) -> (forall pf, In pf pfs -> In (snd pf) (tb_columns tb)) ->
  (forall pf r row, In pf pfs -> nth_error (tb_rows tb) r = Some row ->
     exists y, anchors_cell carr sarr r (fst pf) (row (snd pf)) y) ->
  exists tb', fold_left (anchor_step tb carr sarr) pfs (Ok acc) = Ok tb' /\
    tb_columns tb' = tb_columns tb /\ length (tb_rows tb') = length (tb_rows tb) /\
    forall r row arow, nth_error (tb_rows tb) r = Some row -> nth_error (tb_rows acc) r = Some arow ->
      exists row', nth_error (tb_rows tb') r = Some row' /\
        (forall c, ~ In c (map snd pfs) -> row' c = arow c) /\
        forall pf, In pf pfs -> anchors_cell carr sarr r (fst pf) (row (snd pf)) (row' (snd pf)).
Proof.
  induction pfs as [|pf pfs IH]; intros acc Hc Hl Hnd Hin Hall.
  - exists acc. split; [reflexivity|]. split; [exact Hc|]. split; [exact Hl|].
    intros r row arow Hr Har. exists arow. split; [exact Har|]. split; [reflexivity|]. intros pf [].
  - cbn [fold_left]. simpl in Hnd. inversion Hnd as [|? ? Hno Hnd']; subst.
    destruct (anchor_step_ok tb carr sarr acc pf) as (acc' & -> & Hc' & Hl' & Hrows).
    { apply Hin. now left. } { rewrite Hc. apply Hin. now left. }
    { intros r row Hr. apply Hall; [now left|exact Hr]. }
    destruct (IH acc') as (tb' & -> & Hc2 & Hl2 & Hrows2).
    { congruence. } { congruence. } { exact Hnd'. } { intros pf' H'. apply Hin. now right. }
    { intros pf' r row H' Hr. apply Hall; [now right|exact Hr]. }
    exists tb'. split; [reflexivity|]. split; [exact Hc2|]. split; [exact Hl2|].
    intros r row arow Hr Har. destruct (Hrows r row arow Hr Har) as (row1 & H1 & H2 & H3).
    destruct (Hrows2 r row row1 Hr H1) as (row' & K1 & K2 & K3).
    exists row'. split; [exact K1|]. split.
    + intros c Hno'. rewrite K2 by (intros H; apply Hno'; now right). apply H3.
      intros ->. apply Hno'. now left.
    + intros pf' [<-|Hpf]; [|now apply K3]. rewrite K2 by assumption. exact H2.
Qed.

Lemma Forall2_len {A B} (P : A -> B -> Prop) l l' : Forall2 P l l' -> length l = length l'.
Proof. induction 1; simpl; congruence. Qed.

Lemma nth_error_first {A} (l : list A) k j : j < k -> nth_error (firstn k l) j = nth_error l j.
Proof.
  revert k j. induction l as [|x l IH]; intros k j H; [now rewrite firstn_nil|].
  destruct k as [|k]; [lia|]. destruct j as [|j]; [reflexivity|]. simpl. apply IH. lia.
Qed.

Lemma mask_set_length {A} (mask : list bool) : forall (vals row : list A),
  length mask = length row -> length (mask_set mask vals row) = length row.
Proof.
  induction mask as [|b mask IH]; intros vals row H; destruct row as [|x row]; try discriminate; [reflexivity|].
  simpl in H. cbn [mask_set]. destruct b; [destruct vals|]; cbn [length]; rewrite ?IH by lia; lia.
Qed.

(** The anchoring arrays have an entry for each period and factor, also if the factors
    are not anchored in order. *)
Lemma anchoring_shapes (A : Type) (zero one : A) flog md p n n_obs vec ps :
  wf_dicts md -> good_names md -> process_model md = Ok p -> has_n_periods md n ->
  length vec = length (params_index_of p) ->
  parse_for zero one flog p vec n_obs = Ok ps -> clean_anchoring md ->
  shape (ps_scaling ps) n (length (latent_of md ++ observed_of md)) /\
  shape (ps_constants ps) n (length (latent_of md ++ observed_of md)).
Proof.
  intros Hwf Hg Hp Hn Hlen H Hc.
  destruct (parse_for_inv A zero one flog md p n n_obs vec Hwf (idx_NoDup md p Hwf Hg Hp) Hp Hn Hlen ps H)
    as [s [c [Hs [Hk ->]]]]. clear H.
  unfold the_scaling in Hs. rewrite (parsed_scaling md p Hwf Hp Hc A zero one) in Hs.
  injection Hs as Hs. unfold the_constants in Hk.
  rewrite (parsed_constants md p Hwf Hp Hc A zero) in Hk. injection Hk as Hk.
  unfold the_parsed. cbn [ps_scaling ps_constants]. rewrite <- Hs, <- Hk. clear Hs Hk s c.
  pose proof (n_eq md p n Hp Hn) as En. rewrite En. clear En.
  split; (split; [now rewrite map_length, seq_length|]); intros row Hr; apply in_map_iff in Hr;
    destruct Hr as [t [<- _]]; rewrite !app_length, repeat_length; f_equal.
  - rewrite mask_set_length, map_length; [reflexivity|]. now rewrite !map_length.
  - destruct (ignores_constant md); [apply map_length|].
    rewrite mask_set_length, map_length; [reflexivity|]. now rewrite !map_length.
Qed.

(** Every table with a column of periods and numeric columns for the latent factors can be
    anchored. A cell is transformed with the entries of the parsed anchoring arrays for
    the period of the row. *)
Lemma anchor_states_gen md p n params tb (Q : nat -> string -> R -> R -> Prop) :
    wf_dicts md -> good_names md -> process_model md = Ok p -> has_n_periods md n ->
    2 <= n -> 1 <= n_mixtures_of md -> clean_anchoring md ->
    complete_params p params ->
    In "period" (tb_columns tb) -> (forall f, In f (latent_of md) -> In f (tb_columns tb)) ->
    (forall row, In row (tb_rows tb) ->
       (exists t, t < n /\ row "period" = CInt t) /\
       forall f s, In f (latent_of md) -> row f <> CText s) ->
    (forall ps, parse_for 0%R 1%R ln p (map (value_in params) (params_index_of p)) 1 = Ok ps ->
       forall t j f x c, t < n -> nth_error (latent_of md) j = Some f ->
         entry (ps_scaling ps) t j x -> entry (ps_constants ps) t j c -> Q t f x c) ->
    exists tb', anchor_states_df tb md params = Ok tb' /\
      tb_columns tb' = tb_columns tb /\ length (tb_rows tb') = length (tb_rows tb) /\
      forall r row, nth_error (tb_rows tb) r = Some row -> exists row',
        nth_error (tb_rows tb') r = Some row' /\
        (forall c, ~ In c (latent_of md) -> row' c = row c) /\
        forall t f, row "period" = CInt t -> In f (latent_of md) ->
          exists scale constant, Q t f scale constant /\
            (row f = CNan -> row' f = CNan) /\
            forall x, number_of (row f) = Some x -> row' f = CNum (constant + scale * x)%R.
Proof.
  intros Hwf Hg Hp Hn H2 Hm Hc [Hnd Hcomp] Hper Hcols Hrows HQ.
  unfold anchor_states_df. rewrite Hp. cbn [rbind].
  rewrite (loc_rows_ok params (params_index_of p) Hnd Hcomp). cbn [rbind].
  rewrite map_map. cbn [snd].
  set (vec := map (value_in params) (params_index_of p)).
  change (map (fun x => value_in params x) (params_index_of p)) with vec.
  assert (Hlen : length vec = length (params_index_of p)) by apply map_length.
  destruct (C09_parsing_succeeds R 0%R 1%R ln md p n 1 vec Hwf (idx_NoDup md p Hwf Hg Hp) Hp Hn Hlen Hc H2 Hm) as [ps Hps].
  rewrite Hps. cbn [rbind].
  specialize (HQ ps Hps).
  destruct (anchoring_shapes R 0%R 1%R ln md p n 1 vec ps Hwf Hg Hp Hn Hlen Hps Hc) as [Ssh Csh].
  destruct (p_dims_eq md p Hp) as (Dl & _). rewrite Dl, (l_latent_eq md p Hp).
  set (scal := map (firstn (length (latent_of md))) (ps_scaling ps)).
  set (cons := map (firstn (length (latent_of md))) (ps_constants ps)).
  destruct (period_column_total tb (proj2 (smem_In _ _) Hper)) as [periods Hpc].
  { intros row Hr. destruct (Hrows row Hr) as [(t & _ & E) _]. eauto. }
  rewrite Hpc. cbn [rbind]. apply period_column_ok in Hpc as [_ Hpc].
  assert (Hlt : forall t, In t periods -> t < n).
  { intros t Ht. apply In_nth_error in Ht as [r Hr].
    assert (exists row, nth_error (tb_rows tb) r = Some row) as [row Hrow].
    { destruct (nth_error (tb_rows tb) r) eqn:E; [eauto|]. apply nth_error_None in E.
      pose proof (Forall2_len _ _ _ Hpc) as L. assert (r < length periods) by (apply nth_error_Some; congruence). lia. }
    destruct (Hrows row (nth_error_In _ _ Hrow)) as [(t' & Ht' & E) _].
    assert (E' : row "period" = CInt t).
    { clear -Hpc Hr Hrow. revert r Hr Hrow. induction Hpc as [|a b l l' Hab _ IH]; intros [|r] Hr Hrow; try discriminate.
      - cbn in Hr, Hrow. congruence.
      - eapply IH; eassumption. }
    rewrite E in E'. injection E' as ->. exact Ht'. }
  assert (Hlook : forall arr, length arr = n -> exists rows, mapM (nth_err (map (firstn (length (latent_of md))) arr)) periods = Ok rows /\
            forall r t, nth_error periods r = Some t -> nth r rows [] = firstn (length (latent_of md)) (nth t arr ([] : list R))).
  { intros arr Harr. exists (map (fun t => firstn (length (latent_of md)) (nth t arr [])) periods). split.
    - apply mapM_all_ok. intros t Ht. unfold nth_err. rewrite nth_error_map.
      erewrite nth_error_of_nth by (rewrite Harr; now apply Hlt). reflexivity.
    - intros r t Hr. apply nth_error_nth. now erewrite map_nth_error by exact Hr. }
  destruct (Hlook (ps_scaling ps) (proj1 Ssh)) as (sarr & Es & Hs).
  destruct (Hlook (ps_constants ps) (proj1 Csh)) as (carr & Ec & Hcc).
  unfold scal, cons. rewrite Es. cbn [rbind]. rewrite Ec. cbn [rbind].
  assert (Hcell : forall j f r row t, nth_error (latent_of md) j = Some f -> nth_error (tb_rows tb) r = Some row ->
            row "period" = CInt t ->
            exists x c, nth_error (nth r carr []) j = Some c /\ nth_error (nth r sarr []) j = Some x /\
              Q t f x c).
  { intros j f r row t Hj Hr Ht.
    assert (Hpt : nth_error periods r = Some t).
    { clear -Hpc Hr Ht. revert r Hr. induction Hpc as [|a b l l' Hab _ IH]; intros [|r] Hr; try discriminate.
      - cbn in Hr |- *. congruence.
      - cbn. now apply IH. }
    rewrite (Hs r t Hpt), (Hcc r t Hpt).
    assert (Ht' : t < n) by (apply Hlt; now apply nth_error_In in Hpt).
    assert (Hjl : j < length (latent_of md)) by (apply nth_error_Some; congruence).
    assert (Hent : forall arr, shape arr n (length (latent_of md ++ observed_of md)) -> exists x,
              entry arr t j x /\ nth_error (firstn (length (latent_of md)) (nth t arr ([] : list R))) j = Some x).
    { intros arr [L1 L2]. destruct (nth_error arr t) as [row0|] eqn:E0; [|apply nth_error_None in E0; lia].
      pose proof (L2 row0 (nth_error_In _ _ E0)) as L3. rewrite app_length in L3.
      destruct (nth_error row0 j) as [x|] eqn:E1; [|apply nth_error_None in E1; lia].
      exists x. split; [now exists row0|]. rewrite (nth_error_nth _ _ [] E0), nth_error_first by exact Hjl. exact E1. }
    destruct (Hent _ Ssh) as (x & Hx1 & Hx2). destruct (Hent _ Csh) as (c & Hc1 & Hc2).
    exists x, c. split; [exact Hc2|]. split; [exact Hx2|]. exact (HQ t j f x c Ht' Hj Hx1 Hc1). }
  destruct (anchor_fold tb carr sarr (enumerate (latent_of md)) tb eq_refl eq_refl) as (tb' & Et & Hc' & Hl' & Hr').
  - rewrite map_snd_enumerate. apply Hwf.
  - intros [j f] Hin. apply In_enumerate in Hin. apply Hcols. now apply nth_error_In in Hin.
  - intros [j f] r row Hin Hr. apply In_enumerate in Hin. cbn [fst snd].
    destruct (Hrows row (nth_error_In _ _ Hr)) as [(t & _ & Ht) Htext].
    destruct (Hcell j f r row t Hin Hr Ht) as (x & c & Hx & Hcx & _).
    destruct (row f) as [y|k|s|] eqn:E.
    + exists (CNum (c + y * x)), c, x. auto.
    + exists (CNum (c + INR k * x)), c, x. auto.
    + exfalso. apply (Htext f s); [now apply nth_error_In in Hin|exact E].
    + exists CNan, c, x. auto.
  - exists tb'. split; [exact Et|]. split; [exact Hc'|]. split; [exact Hl'|].
    intros r row Hr. destruct (Hr' r row row Hr Hr) as (row' & K1 & K2 & K3).
    exists row'. split; [exact K1|]. split.
    + intros c Hno. apply K2. now rewrite map_snd_enumerate.
    + intros t f Ht Hf. apply In_nth_error in Hf as [j Hj].
      destruct (Hcell j f r row t Hj Hr Ht) as (x & c & Hx & Hcx & Hpar).
      destruct (K3 (j, f)) as (c' & s' & Hc1 & Hs1 & Haff). { now apply In_enumerate. }
      cbn [fst snd] in *. rewrite Hx in Hc1. rewrite Hcx in Hs1. injection Hc1 as <-. injection Hs1 as <-.
      exists x, c. split; [exact Hpar|]. split.
      * intros E. rewrite E in Haff. cbn in Haff. congruence.
      * intros y Hy. destruct (row f) as [z|k|s|]; cbn in Hy; try discriminate; injection Hy as <-;
          cbn in Haff; injection Haff as <-; f_equal; ring.
Qed.

(** The states of every table with a column of periods and numeric columns for the
    latent factors are anchored with the parameters of the period of the row. Missing:
    the anchored factors must be listed in the order of the latent factors, see
    C51_refuted. *)
Theorem C51_anchored_states_partial :
  forall md p n params tb,
    wf_dicts md -> good_names md -> process_model md = Ok p -> has_n_periods md n ->
    2 <= n -> 1 <= n_mixtures_of md -> clean_anchoring md -> anchored_in_order md ->
    complete_params p params ->
    In "period" (tb_columns tb) -> (forall f, In f (latent_of md) -> In f (tb_columns tb)) ->
    (forall row, In row (tb_rows tb) ->
       (exists t, t < n /\ row "period" = CInt t) /\
       forall f s, In f (latent_of md) -> row f <> CText s) ->
    exists tb', anchor_states_df tb md params = Ok tb' /\ is_anchored_table md params tb tb'.
Proof.
  intros md p n params tb Hwf Hg Hp Hn H2 Hm Hc Ho Hcp Hper Hcols Hrows.
  apply (anchor_states_gen md p n params tb (anchoring_parameters md params)); auto.
  intros ps Hps t j f x c Ht Hj Hx Hcx. destruct Hcp as [Hnd Hcomp].
  destruct (C12_anchoring_factors_partial R 0%R 1%R ln md p n 1 _ ps Hwf Hg Hp Hn ltac:(apply map_length) Hps Hc Ho)
    as (_ & _ & Hent).
  destruct (Hent t j f Ht) as (x' & c' & Hx' & Hc' & A1 & A2 & A3 & A4).
  { rewrite nth_error_app1; [exact Hj|]. apply nth_error_Some. congruence. }
  assert (Hfun : forall (arr : list (list R)) y y', entry arr t j y -> entry arr t j y' -> y = y').
  { intros arr y y' (r & B1 & B2) (r' & B1' & B2'). congruence. }
  rewrite (Hfun _ _ _ Hx Hx'), (Hfun _ _ _ Hcx Hc').
  assert (Hval : forall lb y, labelled (params_index_of p) (map (value_in params) (params_index_of p)) lb y ->
            has_value params lb y).
  { intros lb y Hl. apply labelled_values in Hl as [Hin ->]. apply value_in_has. now apply Hcomp. }
  split; [|split; [|split]]; auto.
Qed.
Print Assumptions C51_anchored_states_partial.

Lemma map_fst_values (idx : list label) (val : label -> R) : map fst (map (fun lb => (lb, val lb)) idx) = idx.
Proof. rewrite map_map. cbn [fst]. apply map_id. Qed.

Lemma anchored_table_mono md params params' tb tb' :
  (forall lb x, has_value params lb x -> has_value params' lb x) ->
  is_anchored_table md params tb tb' -> is_anchored_table md params' tb tb'.
Proof.
  intros H (H1 & H2 & H3). split; [exact H1|]. split; [exact H2|].
  intros r row Hr. destruct (H3 r row Hr) as (row' & K1 & K2 & K3). exists row'.
  split; [exact K1|]. split; [exact K2|]. intros t f Ht Hf.
  destruct (K3 t f Ht Hf) as (s & c & (A1 & A2 & A3 & A4) & B). exists s, c. split; [|exact B].
  split; [|split; [|split]]; eauto.
Qed.

Lemma combine_values (idx : list label) (val : label -> R) :
  map (fun lb => (lb, val lb)) idx = combine idx (map val idx).
Proof. induction idx as [|lb idx IH]; [reflexivity|]. simpl. now rewrite IH. Qed.

(** get_filtered_states: it fails only if the likelihood fails. Otherwise the
    unanchored states are those of C48, the anchored states are obtained from them as
    in C51, and both come with their ranges (C50). *)
Theorem C51_get_filtered_states_partial :
  forall qr nan tfunc md p n df ids lv ar params ps params_df,
    likelihood_setting md p n df ids lv ar params ps ->
    complete_params p params_df ->
    (forall lb x, labelled (params_index_of p) params lb x -> has_value params_df lb x) ->
    every_period_has_measurement md n ->
    ~ In "period" (latent_of md) -> ~ In "id" (latent_of md) ->
    clean_anchoring md -> anchored_in_order md ->
    (forall e, log_likelihood qr nan tfunc p ar true params = Err e ->
       get_filtered_states qr nan tfunc md df params_df = Err e) /\
    forall out, log_likelihood qr nan tfunc p ar true params = Ok out ->
      exists fo recs,
        get_filtered_states qr nan tfunc md df params_df = Ok fo /\
        run_model qr nan tfunc p (length ids) ps ar (schedule md n) = Ok recs /\
        is_filtered_table md n (length ids) recs (fo_unanchored fo) /\
        is_anchored_table md params_df (fo_unanchored fo) (fo_anchored fo) /\
        create_state_ranges (fo_unanchored fo) (latent_of md) = Ok (fo_unanchored_ranges fo) /\
        create_state_ranges (fo_anchored fo) (latent_of md) = Ok (fo_anchored_ranges fo).
Proof.
  intros qr nan tfunc md p n df ids lv ar params ps params_df H Hcomp Hvals Hev Hper Hid Hc Ho.
  assert (Hwf : wf_dicts md) by apply H. assert (Hp : process_model md = Ok p) by apply H.
  assert (Hn : has_n_periods md n) by apply H. assert (Hg : good_names md) by apply H.
  assert (Hlen : length params = length (params_index_of p)) by apply H.
  assert (Hps : parse_for 0%R 1%R ln p params (length ids) = Ok ps) by apply H.
  destruct (parse_for_needs R 0%R 1%R ln md p n (length ids) params Hp Hn Hlen ps Hps) as [Hn2 Hm1].
  pose proof (idx_NoDup md p Hwf Hg Hp) as Hnd.
  assert (Evec : params = map (value_in params_df) (params_index_of p)).
  { rewrite (val_of_map 0%R (params_index_of p) params Hnd Hlen) at 1. apply map_ext_in. intros lb Hlb.
    assert (Hl : labelled (params_index_of p) params lb (val_of 0%R (params_index_of p) params lb)).
    { rewrite (val_of_map 0%R (params_index_of p) params Hnd Hlen) at 1. now apply labelled_values. }
    apply Hvals in Hl. pose proof (value_in_has params_df lb (proj2 Hcomp lb Hlb)) as Hv.
    apply (proj2 (row_value_In params_df lb _ (proj1 Hcomp))) in Hl.
    apply (proj2 (row_value_In params_df lb _ (proj1 Hcomp))) in Hv. congruence. }
  set (rows := map (fun lb => (lb, value_in params_df lb)) (params_index_of p)).
  assert (Hv : get_params_vec rows (params_index_of p) = Ok params).
  { unfold rows. rewrite combine_values, <- Evec. now apply get_params_vec_self. }
  assert (Har : process_data 1%R req df (p_labels p) (p_update p) (p_anch p) true = Ok ar) by apply H.
  destruct (C48_filtered_states_partial qr nan tfunc md p n df ids lv ar params ps rows H Hv Hev Hper Hid)
    as (f & Ef & Herr & Hok).
  unfold get_filtered_states. rewrite Ef. cbn [rbind]. rewrite Hp. cbn [rbind].
  rewrite (loc_rows_ok params_df (params_index_of p) (proj1 Hcomp) (proj2 Hcomp)). cbn [rbind]. fold rows.
  unfold debug_loglike in Ef. rewrite Hp in Ef. cbn [rbind] in Ef. rewrite Har in Ef. cbn [rbind] in Ef.
  injection Ef as Ef. assert (Ef' := f_equal (fun g => g rows) Ef). cbv beta in Ef'.
  rewrite Hv in Ef'. cbn [rbind] in Ef'. split.
  - intros e E. rewrite E in Ef'. cbn [rbind] in Ef'. rewrite <- Ef'. reflexivity.
  - intros out E. destruct (f rows) as [tables|e] eqn:Efr.
    2:{ specialize (Herr e eq_refl). rewrite E in Herr. exfalso. exact (ok_not_err _ _ Herr). }
    destruct (Hok tables eq_refl) as (recs & Er & Htab). cbn [rbind].
    assert (Hrg : create_state_ranges (dt_filtered_states tables) (latent_of md) = Ok (dt_state_ranges tables)).
    { rewrite E in Ef'. cbn [rbind] in Ef'. destruct (out_debug out) as [dbg|]; [|exfalso; exact (ok_not_err _ _ (eq_sym Ef'))].
      unfold process_debug_data in Ef'. rewrite (l_latent_eq md p Hp) in Ef'.
      apply rbind_ok in Ef' as (post & _ & Ef'). apply rbind_ok in Ef' as (filt & _ & Ef').
      apply rbind_ok in Ef' as (rg & Erg & Ef'). apply rbind_ok in Ef' as (r1 & _ & Ef').
      apply rbind_ok in Ef' as (r2 & _ & Ef'). apply rbind_ok in Ef' as (r3 & _ & Ef').
      injection Ef' as <-. exact Erg. }
    assert (Hshape : forall row, In row (tb_rows (dt_filtered_states tables)) ->
              (exists t, t < n /\ row "period" = CInt t) /\
              (forall g s, In g (latent_of md) -> row g <> CText s)).
    { intros row Hrow. destruct Htab as (_ & Hl & Hr). apply In_nth_error in Hrow as [q Hq].
      assert (Hlt : q < n * length ids). { rewrite <- Hl. apply nth_error_Some. congruence. }
      destruct (length ids) as [|no]; [lia|].
      destruct (Hr (q / S no) (q mod S no)) as (row' & k & rec & Hr' & Hp' & _ & _ & _ & Hav).
      { apply Nat.div_lt_upper_bound; lia. } { apply Nat.mod_upper_bound. lia. }
      replace (q / S no * S no + q mod S no) with q in Hr' by (rewrite Nat.mul_comm; apply Nat.div_mod; lia).
      rewrite Hq in Hr'. injection Hr' as <-. split.
      - exists (q / S no). split; [apply Nat.div_lt_upper_bound; lia|exact Hp'].
      - intros g s Hg' E'. apply In_nth_error in Hg' as [j Hj]. rewrite (Hav j g Hj) in E'. discriminate. }
    assert (Hcols : tb_columns (dt_filtered_states tables) = latent_of md ++ ["period"; "id"]) by apply Htab.
    destruct (C51_anchored_states_partial md p n rows (dt_filtered_states tables) Hwf Hg Hp Hn Hn2 Hm1 Hc Ho)
      as (tb' & Etb & Hanch).
    { split; unfold rows; rewrite map_fst_values; [exact Hnd|tauto]. }
    { rewrite Hcols. apply in_or_app. right. now left. }
    { intros g Hg'. rewrite Hcols. apply in_or_app. now left. }
    { exact Hshape. }
    rewrite Etb. cbn [rbind]. rewrite (l_latent_eq md p Hp).
    destruct (C50_ranges_exist tb' (latent_of md)) as [rg Hrg'].
    { rewrite (proj1 Hanch), Hcols. apply in_or_app. right. now left. }
    { intros row Hrow. apply In_nth_error in Hrow as [r Hr].
      destruct (nth_error (tb_rows (dt_filtered_states tables)) r) as [row0|] eqn:Er0.
      2:{ apply nth_error_None in Er0. destruct Hanch as (_ & Hl & _). rewrite <- Hl in Er0.
          apply nth_error_None in Er0. rewrite Hr in Er0. discriminate. }
      destruct Hanch as (_ & _ & Hrow). destruct (Hrow r row0 Er0) as (row1 & K1 & K2 & _).
      rewrite Hr in K1. injection K1 as <-. rewrite (K2 "period" Hper).
      destruct (Hshape row0 (nth_error_In _ _ Er0)) as [(t & _ & Ht) _]. eauto. }
    { intros g Hg'. split; [rewrite (proj1 Hanch), Hcols; apply in_or_app; now left|]. intros ->. contradiction. }
    rewrite Hrg'. cbn [rbind]. eexists _, recs. split; [reflexivity|].
    cbn [fo_anchored fo_unanchored fo_unanchored_ranges fo_anchored_ranges].
    split; [exact Er|]. split; [exact Htab|]. split; [|split; [exact Hrg|exact Hrg']].
    apply (anchored_table_mono md rows params_df); [|exact Hanch].
    intros lb x Hx. unfold has_value, rows in Hx. apply in_map_iff in Hx as (lb' & [= <- <-] & Hlb).
    apply value_in_has. now apply Hcomp.
Qed.
Print Assumptions C51_get_filtered_states_partial.

Example C51_nonvacuous :
  let params_df := rev (combine (params_index_of single_p) single_params) in
  (exists ar ps, likelihood_setting single_model single_p 3 (real_frame ex_df) ex_ids ex_lv ar single_params ps) /\
  complete_params single_p params_df /\
  (forall lb x, labelled (params_index_of single_p) single_params lb x -> has_value params_df lb x) /\
  every_period_has_measurement single_model 3 /\
  ~ In "period" (latent_of single_model) /\ ~ In "id" (latent_of single_model) /\
  clean_anchoring single_model /\ anchored_in_order single_model /\
  anchored single_model "cog" "Q1" /\ ignores_constant single_model = false /\
  forall qr nan tfunc, exists fo,
    get_filtered_states qr nan tfunc single_model (real_frame ex_df) params_df = Ok fo.
Proof.
  intros params_df. destruct single_example as (ar & ps & H).
  assert (H2 : complete_params single_p params_df).
  { unfold params_df. split; rewrite map_rev, map_fst_combine by apply single_params_length.
    - apply NoDup_rev. apply (idx_NoDup single_model single_p); [apply single_setting|exact small_model_good_names|exact single_model_accepted].
    - intros lb Hlb. exact (proj1 (in_rev (params_index_of single_p) lb) Hlb). }
  assert (H3 : forall lb x, labelled (params_index_of single_p) single_params lb x -> has_value params_df lb x).
  { intros lb x (i & Hi & Hx). unfold has_value, params_df.
    refine (proj1 (in_rev (combine (params_index_of single_p) single_params) (lb, x)) _).
    exact (nth_error_In _ i (proj2 (nth_error_combine _ _ i lb x) (conj Hi Hx))). }
  assert (H4 : every_period_has_measurement single_model 3).
  { intros t Ht. destruct t as [|[|[|t]]]; [| | |lia].
    - exists "a". vm_compute. tauto.
    - exists "a". vm_compute. tauto.
    - exists "a". vm_compute. tauto. }
  assert (H5 : ~ In "period" (latent_of single_model)) by (simpl; intuition discriminate).
  assert (H6 : ~ In "id" (latent_of single_model)) by (simpl; intuition discriminate).
  assert (H7 : clean_anchoring single_model) by exact small_model_clean.
  assert (H8 : anchored_in_order single_model) by reflexivity.
  split; [eauto|]. repeat (split; [assumption|]). split; [eexists _, _; repeat split; simpl; tauto|].
  split; [reflexivity|]. intros qr nan tfunc.
  destruct (C51_get_filtered_states_partial qr nan tfunc _ _ _ _ _ _ _ _ _ _ H H2 H3 H4 H5 H6 H7 H8) as [_ Hok].
  assert (Hfit : shapes_fit (length ex_ids) (n_mixtures (p_dims single_p)) (n_observed (p_dims single_p)) = true).
  { apply shapes_fit_spec. right. right. reflexivity. }
  destruct (likelihood_events qr nan tfunc _ _ _ _ _ _ _ _ _ true H Hfit) as (recs & out & _ & _ & Eo & _).
  destruct (Hok out Eo) as (fo & _ & E & _). eauto.
Qed.

Lemma has_value_map idx (val : label -> R) lb x :
  has_value (map (fun lb => (lb, val lb)) idx) lb x -> x = val lb.
Proof. unfold has_value. intros H. apply in_map_iff in H as (lb' & [= <- <-] & _). reflexivity. Qed.

Lemma val_of_values idx (val : label -> R) lb : NoDup idx -> In lb idx ->
  val_of 0%R idx (map val idx) lb = val lb.
Proof.
  intros Hnd Hin. assert (Hl : labelled idx (map val idx) lb (val_of 0%R idx (map val idx) lb)).
  { rewrite (val_of_map 0%R idx (map val idx) Hnd) at 1 by apply map_length. now apply labelled_values. }
  apply labelled_values in Hl. apply Hl.
Qed.

Definition skewed_value (lb : label) : R :=
  if label_eqb lb (CLoadings, 0, "Q2_soc", "soc") then 2%R else 1%R.
Definition skewed_params : list (label * R) := map (fun lb => (lb, skewed_value lb)) (params_index_of reversed_p).
Definition skewed_table : table :=
  mk_table ["cog"; "soc"; "period"]
    [fun c => if String.eqb c "period" then CInt 0 else CNum 1].

(** The anchored factors are listed in another order than the factors: the states of
    "cog" are anchored with the loading of "soc". *)
Theorem C51_refuted :
  exists md p params tb tb',
    wf_dicts md /\ good_names md /\ process_model md = Ok p /\ has_n_periods md 3 /\
    1 <= n_mixtures_of md /\ clean_anchoring md /\ complete_params p params /\
    In "period" (tb_columns tb) /\ (forall f, In f (latent_of md) -> In f (tb_columns tb)) /\
    (forall row, In row (tb_rows tb) ->
       row "period" = CInt 0 /\ forall f, In f (latent_of md) -> exists x, row f = CNum x) /\
    anchor_states_df tb md params = Ok tb' /\ ~ is_anchored_table md params tb tb'.
Proof.
  assert (Hwf : wf_dicts reversed_model).
  { split; [apply small_model_wf|]. intros a o [= <-] [= <-].
    repeat constructor; simpl; intuition discriminate. }
  assert (Hp : process_model reversed_model = Ok reversed_p) by (vm_compute; reflexivity).
  assert (Hg : good_names reversed_model) by exact small_model_good_names.
  assert (Hn : has_n_periods reversed_model 3) by exact small_model_periods.
  assert (Hc : clean_anchoring reversed_model).
  { destruct small_model_clean as [H1 [H2 H3]]. split; [|split].
    - simpl. intros f o [[= <- <-]|[[= <- <-]|[]]]; simpl; tauto.
    - simpl. repeat constructor; simpl; intuition discriminate.
    - intros t f o g Ho Hm. apply (H3 t f o g); [|exact Hm]. simpl in *. tauto. }
  assert (Hm : 1 <= n_mixtures_of reversed_model) by (apply Nat.leb_le; reflexivity).
  pose proof (idx_NoDup reversed_model reversed_p Hwf Hg Hp) as Hnd.
  assert (Hcomp : complete_params reversed_p skewed_params).
  { unfold skewed_params. split; rewrite map_fst_values; [exact Hnd|tauto]. }
  assert (Hval : forall lb x, has_value skewed_params lb x -> x = skewed_value lb).
  { exact (has_value_map (params_index_of reversed_p) skewed_value). }
  set (vec := map (value_in skewed_params) (params_index_of reversed_p)).
  assert (Hlen : length vec = length (params_index_of reversed_p)) by apply map_length.
  destruct (C09_parsing_succeeds R 0%R 1%R ln reversed_model reversed_p 3 1 vec Hwf (idx_NoDup reversed_model reversed_p Hwf Hg Hp) Hp Hn Hlen Hc ltac:(lia) Hm)
    as [ps Hps].
  assert (Hvec : forall lb, In lb (params_index_of reversed_p) ->
            val_of 0%R (params_index_of reversed_p) vec lb = skewed_value lb).
  { intros lb Hlb. unfold vec.
    exact (eq_trans (val_of_values (params_index_of reversed_p) (value_in skewed_params) lb Hnd Hlb)
             (Hval lb _ (value_in_has skewed_params lb (proj2 Hcomp lb Hlb)))). }
  destruct (parse_for_inv R 0%R 1%R ln reversed_model reversed_p 3 1 vec Hwf (idx_NoDup reversed_model reversed_p Hwf Hg Hp) Hp Hn Hlen ps Hps)
    as (s & c & Hs & Hk & Eps).
  unfold the_scaling in Hs. rewrite (parsed_scaling reversed_model reversed_p Hwf Hp Hc R 0%R 1%R) in Hs.
  unfold the_constants in Hk. rewrite (parsed_constants reversed_model reversed_p Hwf Hp Hc R 0%R) in Hk.
  apply ok_inj in Hs. apply ok_inj in Hk. unfold the_parsed in Eps.
  set (val := val_of 0%R (params_index_of reversed_p) vec) in *. clearbody val.
  assert (Es1 : ps_scaling ps = s) by (rewrite Eps; reflexivity).
  assert (Ec1 : ps_constants ps = c) by (rewrite Eps; reflexivity). clear Eps.
  assert (Es : exists s1 s2, s = [val (CLoadings, 0, "Q2_soc", "soc"); val (CLoadings, 0, "Q1_cog", "cog"); 1%R] :: [s1; s2]).
  { rewrite <- Hs. eexists _, _. reflexivity. }
  assert (Ec : exists c1 c2, c = [val (CControls, 0, "Q2_soc", "constant"); val (CControls, 0, "Q1_cog", "constant"); 0%R] :: [c1; c2]).
  { rewrite <- Hk. eexists _, _. reflexivity. }
  destruct Es as (s1 & s2 & Es). destruct Ec as (c1 & c2 & Ec).
  assert (Ea : exists tb' row', anchor_states_df skewed_table reversed_model skewed_params = Ok tb' /\
            tb_rows tb' = [row'] /\
            row' "cog" = CNum (val (CControls, 0, "Q2_soc", "constant") + 1 * val (CLoadings, 0, "Q2_soc", "soc"))).
  { unfold anchor_states_df. rewrite Hp. cbn [rbind].
    rewrite (loc_rows_ok skewed_params (params_index_of reversed_p) (proj1 Hcomp) (proj2 Hcomp)). cbn [rbind].
    rewrite map_map. cbn [snd]. change (map (fun x => value_in skewed_params x) (params_index_of reversed_p)) with vec.
    rewrite Hps. cbn [rbind]. rewrite Es1, Ec1, Es, Ec.
    change (n_latent (p_dims reversed_p)) with 2.
    change (l_latent (p_labels reversed_p)) with ["cog"; "soc"].
    eexists _, _. split; [reflexivity|]. split; [reflexivity|]. reflexivity. }
  destruct Ea as (tb' & row' & Ea & Er & Ecog).
  exists reversed_model, reversed_p, skewed_params, skewed_table, tb'.
  repeat (split; [assumption|]).
  split; [simpl; tauto|]. split; [simpl; tauto|]. split.
  { intros row [<-|[]]. split; [reflexivity|]. intros f Hf. exists 1%R. simpl in Hf.
    destruct Hf as [<-|[<-|[]]]; reflexivity. }
  split; [exact Ea|].
  intros (_ & _ & Hrow). destruct (Hrow 0 _ eq_refl) as (row2 & K1 & _ & K3).
  rewrite Er in K1. injection K1 as <-.
  destruct (K3 0 "cog" eq_refl ltac:(simpl; tauto)) as (sc & co & (A1 & A2 & _ & _) & _ & Hx).
  assert (Hanch : anchored reversed_model "cog" "Q1") by (eexists _, _; repeat split; simpl; tauto).
  specialize (A1 "Q1" Hanch). specialize (A2 "Q1" Hanch eq_refl).
  apply Hval in A1. apply Hval in A2. specialize (Hx 1%R eq_refl). rewrite Ecog in Hx. injection Hx as Hx.
  assert (Hmem : forall lb, label_mem lb (params_index_of reversed_p) = true -> val lb = skewed_value lb).
  { intros lb Hlb. exact (Hvec lb (proj1 (label_mem_In lb (params_index_of reversed_p)) Hlb)). }
  rewrite (Hmem (CControls, 0, "Q2_soc", "constant")) in Hx by (vm_compute; reflexivity).
  rewrite (Hmem (CLoadings, 0, "Q2_soc", "soc")) in Hx by (vm_compute; reflexivity).
  subst sc co. unfold skewed_value in Hx. cbn in Hx. lra.
Qed.
Print Assumptions C51_refuted.
