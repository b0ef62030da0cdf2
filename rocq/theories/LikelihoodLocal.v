(** Individuals do not influence each other in a run of the filter. *)
Require Import Reals Qreals String Arith ZArith Bool List Lia Classical.
From Verif Require Import PyBase ListFacts ModelSpec ProcessModel CheckModel SpecModel SpecParse
  ParamsIndex ParseParams ProcessData SpecData RSum Kalman SpecKalman KalmanFacts PropsKalman Clipping
  Likelihood SpecLikelihood PredictFacts LikelihoodFacts.
Import ListNotations.
Open Scope R_scope.

(** ** The number of individuals in the parsed parameters *)

Lemma parse_n_obs p vec n1 n2 ps1 :
  parse_for 0 1 ln p vec n1 = Ok ps1 ->
  exists ps2 s c w,
    parse_for 0 1 ln p vec n2 = Ok ps2 /\
    ps_states ps1 = repeat s n1 /\ ps_states ps2 = repeat s n2 /\
    ps_upper_chols ps1 = repeat c n1 /\ ps_upper_chols ps2 = repeat c n2 /\
    ps_log_weights ps1 = repeat w n1 /\ ps_log_weights ps2 = repeat w n2 /\
    ps_controls ps1 = ps_controls ps2 /\ ps_loadings ps1 = ps_loadings ps2 /\
    ps_meas_sds ps1 = ps_meas_sds ps2 /\ ps_shock_sds ps1 = ps_shock_sds ps2 /\
    ps_transition ps1 = ps_transition ps2 /\ ps_scaling ps1 = ps_scaling ps2 /\
    ps_constants ps1 = ps_constants ps2.
Proof.
  unfold parse_for, parse_params, get_initial_states, get_initial_upper_chols.
  set (info := create_parsing_info (params_index_of p) (p_update p) (p_labels p) (p_anch p)).
  destruct (_ =? _)%nat; [|discriminate]. cbn [rbind].
  destruct (reshape_rows _ _) as [x|]; cbn [rbind]; [|discriminate].
  destruct (mapM _ x) as [y|]; cbn [rbind]; [|discriminate].
  destruct (get_control_params 0 vec info (p_dims p)) as [c|]; cbn [rbind]; [|discriminate].
  destruct (get_loadings 0 vec info) as [l|]; cbn [rbind]; [|discriminate].
  destruct (get_shock_sds 0 vec info (p_dims p)) as [s|]; cbn [rbind]; [|discriminate].
  destruct (get_transition_params 0 vec info (p_labels p)) as [t|]; cbn [rbind]; [|discriminate].
  destruct (get_anchoring_scaling_factors 1 l info (p_dims p)) as [sf|]; cbn [rbind]; [|discriminate].
  destruct (get_anchoring_constants 0 c info (p_dims p)) as [k|]; cbn [rbind]; [|discriminate].
  intros [= <-]. eexists _, _, _, _. split; [reflexivity|].
  cbn [ps_states ps_upper_chols ps_log_weights ps_controls ps_loadings ps_meas_sds ps_shock_sds
       ps_transition ps_scaling ps_constants].
  unfold get_initial_log_mixture_weights. repeat split.
Qed.

Lemma parse_mixtures p vec n ps : parse_for 0 1 ln p vec n = Ok ps -> (1 <= n_mixtures (p_dims p))%nat.
Proof.
  unfold parse_for, parse_params, get_initial_states, get_initial_upper_chols, reshape_rows.
  set (info := create_parsing_info (params_index_of p) (p_update p) (p_labels p) (p_anch p)).
  destruct (_ =? _)%nat; [|discriminate]. cbn [rbind].
  destruct (n_mixtures (p_dims p)) as [|k]; [discriminate|lia].
Qed.

(** ** Prediction *)

Section Predict.
  Variable qr : qr_function.
  Hypothesis Hqr : local_qr qr.
  Variables (nm n no : nat).
  Variable func : vec -> vec.
  Hypothesis Hfunc : local_transition n (n + no) func.
  Variables (scale : R) (weights shock_sds : vec) (anch const : nat -> vec).

  Lemma predict_entries n_obs st ch obs r : (1 <= n_obs)%nat ->
    kalman_predict qr n_obs nm n no st ch scale weights func shock_sds anch const obs = Ok r ->
    (no = 0 \/ nm = 1)%nat /\
    exists pts, (forall i m s f, (m < nm)%nat -> (s < 2 * n + 1)%nat ->
                   pts i m s f = point nm n st ch scale obs i m s f) /\
    let tr := transform_sigma_points nm (2 * n + 1) pts func anch const in
    let ms i m f := rsum (2 * n + 1) (fun s => weights s * tr i m s f) in
    fst r = ms /\
    snd r = fun i m => qr (2 * n + 1 + n)%nat n
                (predict_matrix n weights (fun s f => tr i m s f - ms i m f) shock_sds).
  Proof.
    intros Ho E. unfold kalman_predict in E.
    destruct (sigma_points_cases n_obs nm n no st ch scale obs) as [Ee|(pts & Ee & Hc & Hp)];
      rewrite Ee in E; [discriminate|]. cbn [rbind] in E. injection E as <-.
    split; [destruct Hc as [->|Hc]; [lia|exact Hc]|]. exists pts. split; [exact Hp|].
    split; reflexivity.
  Qed.

  Lemma predict_local n_obs n_obs' st ch obs st' ch' obs' r r' i j :
    (1 <= n_obs)%nat -> (1 <= n_obs')%nat ->
    (forall m, (m < nm)%nat -> veq n (st i m) (st' j m) /\ meq n (ch i m) (ch' j m)) ->
    (forall o, (o < no)%nat -> obs i o = obs' j o) ->
    kalman_predict qr n_obs nm n no st ch scale weights func shock_sds anch const obs = Ok r ->
    kalman_predict qr n_obs' nm n no st' ch' scale weights func shock_sds anch const obs' = Ok r' ->
    forall m, (m < nm)%nat -> veq n (fst r i m) (fst r' j m) /\ meq n (snd r i m) (snd r' j m).
  Proof.
    intros Ho Ho' Hst Hobs E E' m Hm.
    destruct (predict_entries _ _ _ _ _ Ho E) as (Hc & pts & Hp & Hf & Hs).
    destruct (predict_entries _ _ _ _ _ Ho' E') as (_ & pts' & Hp' & Hf' & Hs').
    assert (Hpts : forall s f, (s < 2 * n + 1)%nat -> (f < n + no)%nat ->
              pts i m s f = pts' j m s f).
    { intros s f Hs0 Hf0. rewrite Hp, Hp' by assumption. unfold point.
      destruct (Hst m Hm) as [Hv Hmq].
      destruct (f <? n)%nat eqn:Ef.
      - apply Nat.ltb_lt in Ef. rewrite (Hv f Ef). f_equal; [f_equal|f_equal].
        + destruct ((1 <=? s) && (s <? n + 1))%nat eqn:Eb; [|reflexivity].
          apply andb_true_iff in Eb as [E1 E2]. apply Nat.leb_le in E1. apply Nat.ltb_lt in E2.
          now rewrite Hmq by lia.
        + destruct (n + 1 <=? s)%nat eqn:Eb; [|reflexivity]. apply Nat.leb_le in Eb.
          now rewrite Hmq by lia.
      - apply Nat.ltb_ge in Ef. destruct Hc as [->| Hc]; [lia|].
        assert (m = O) as -> by lia. rewrite Hc. unfold flat. rewrite !Nat.mul_1_r, !Nat.add_0_r.
        apply Hobs. lia. }
    assert (Htr : forall s f, (s < 2 * n + 1)%nat -> (f < n)%nat ->
      transform_sigma_points nm (2 * n + 1) pts func anch const i m s f
      = transform_sigma_points nm (2 * n + 1) pts' func anch const j m s f).
    { intros s f Hs0 Hf0. unfold transform_sigma_points.
      assert (Hflat : forall k, (flat (2 * n + 1) (flat nm k m) s / (2 * n + 1) / nm = k /\
                (flat (2 * n + 1) (flat nm k m) s / (2 * n + 1)) mod nm = m /\
                flat (2 * n + 1) (flat nm k m) s mod (2 * n + 1) = s)%nat).
      { intros k. rewrite (flat_div _ _ s Hs0), (flat_mod _ _ s Hs0), (flat_div _ _ m Hm), (flat_mod _ _ m Hm).
        auto. }
      destruct (Hflat i) as (-> & -> & ->), (Hflat j) as (-> & -> & ->).
      f_equal. f_equal. apply Hfunc; [|assumption]. intros g Hg. now rewrite Hpts. }
    assert (Hmean : veq n (fst r i m) (fst r' j m)).
    { intros f Hf0. rewrite Hf, Hf'. apply rsum_ext. intros s Hs0. now rewrite Htr. }
    split; [exact Hmean|].
    intros a b Ha Hb. rewrite Hs, Hs'. apply Hqr; [|assumption|assumption].
    intros k f Hk Hf0. unfold predict_matrix.
    destruct (k <? 2 * n + 1)%nat eqn:Ek; [|reflexivity]. apply Nat.ltb_lt in Ek.
    rewrite Htr by assumption. rewrite Hf, Hf' in Hmean. now rewrite (Hmean f Hf0).
  Qed.
End Predict.

(** ** Runs *)

Section Runs.
  Variable qr : qr_function.
  Hypothesis Hqr : local_qr qr.
  Variable nan : R.
  Variable tfunc : dict (list R) -> vec -> vec.
  Variables (nm n no nc : nat) (kappa : R).
  Hypothesis Htf : forall c, local_transition n (n + no) (tfunc c).
  Hypothesis Hnm : (1 <= nm)%nat.
  Variables (n_obs n_obs' : nat) (inp inp' : inputs) (i j : nat).
  Hypothesis Ho : (1 <= n_obs)%nat.
  Hypothesis Ho' : (1 <= n_obs')%nat.
  Hypothesis Hpar : in_loadings inp = in_loadings inp' /\ in_control_params inp = in_control_params inp' /\
    in_sd inp = in_sd inp' /\ in_coeffs inp = in_coeffs inp' /\ in_shock_sds inp = in_shock_sds inp' /\
    in_scaling inp = in_scaling inp' /\ in_constants inp = in_constants inp'.
  Hypothesis Hval : forall k, in_values inp k i = in_values inp' k j.
  Hypothesis Hctl : forall t c, (c < nc)%nat -> in_controls inp t i c = in_controls inp' t j c.
  Hypothesis Hobs : forall t o, (o < no)%nat -> in_observed inp t i o = in_observed inp' t j o.

  Definition same_belief (b b' : belief) : Prop := forall m, (m < nm)%nat ->
    veq n (be_states b i m) (be_states b' j m) /\ meq n (be_chols b i m) (be_chols b' j m) /\
    be_logw b i m = be_logw b' j m.

  Definition same_record (r r' : record) : Prop :=
    re_contribution r i = re_contribution r' j /\
    forall m, (m < nm)%nat ->
      veq n (re_states r i m) (re_states r' j m) /\ re_logw r i m = re_logw r' j m /\
      re_residuals r i m = re_residuals r' j m /\ re_residual_sds r i m = re_residual_sds r' j m.

  Lemma update_same a k t b b' : same_belief b b' ->
    same_belief (fst (update_event qr nan nm n nc inp a k t b)) (fst (update_event qr nan nm n nc inp' a k t b')) /\
    same_record (snd (update_event qr nan nm n nc inp a k t b)) (snd (update_event qr nan nm n nc inp' a k t b')).
  Proof.
    intros Hb. unfold update_event. cbn [fst snd].
    destruct Hpar as (<- & <- & <- & _).
    pose proof (C35_individuals_independent qr Hqr nan nm n nc (in_loadings inp k) (in_control_params inp k)
      (in_sd inp k) (be_states b) (be_chols b) (in_values inp k) (in_controls inp t) (be_logw b)
      (be_states b') (be_chols b') (in_values inp' k) (in_controls inp' t) (be_logw b') i j Hnm Hb (Hval k)
      (Hctl t)) as [H1 H2].
    unfold same_belief, same_record.
    cbn [be_states be_chols be_logw re_contribution re_states re_logw re_residuals re_residual_sds].
    split; [|split; [exact H2|]]; intros m Hm; destruct (H1 m Hm) as (A & B & C & D & E);
      destruct (Hb m Hm) as (A' & B' & C'); destruct a; auto.
  Qed.

  Lemma transition_same t b b' r r' : same_belief b b' ->
    transition_event qr nan tfunc n_obs nm n no kappa inp t b = Ok r ->
    transition_event qr nan tfunc n_obs' nm n no kappa inp' t b' = Ok r' ->
    same_belief r r'.
  Proof.
    intros Hb E E'. unfold transition_event in E, E'.
    destruct Hpar as (_ & _ & _ & H1 & H2 & H3 & H4). rewrite <- H1, <- H2, <- H3, <- H4 in E'.
    apply rbind_ok in E as (x & Ex & [= <-]). apply rbind_ok in E' as (x' & Ex' & [= <-]).
    intros m Hm. cbn [be_states be_chols be_logw].
    destruct (predict_local qr Hqr nm n no (tfunc (in_coeffs inp t)) (Htf _) _ _ _ _ _ n_obs n_obs' _ _ _ _ _ _
      x x' i j Ho Ho' (fun m Hm => match Hb m Hm with conj A (conj B _) => conj A B end)
      (fun o Hlt => f_equal (to_number nan) (Hobs t o Hlt)) Ex Ex' m Hm) as [A B].
    destruct (Hb m Hm) as (_ & _ & C). auto.
  Qed.

  Lemma run_same evs : forall b b' recs recs', same_belief b b' ->
    run qr nan tfunc n_obs nm n no nc kappa inp evs b = Ok recs ->
    run qr nan tfunc n_obs' nm n no nc kappa inp' evs b' = Ok recs' ->
    Forall2 same_record recs recs'.
  Proof.
    induction evs as [|e evs IH]; intros b b' recs recs' Hb E E'.
    - injection E as <-. injection E' as <-. constructor.
    - destruct e as [k t|k t|t]; cbn [run] in E, E';
        apply rbind_ok in E as (x & Ex & E); apply rbind_ok in E' as (x' & Ex' & E').
      + injection E as <-. injection E' as <-.
        destruct (update_same false k t b b' Hb) as [A B]. constructor; [exact B|]. eauto.
      + injection E as <-. injection E' as <-.
        destruct (update_same true k t b b' Hb) as [A B]. constructor; [exact B|]. eauto.
      + eapply IH; [|exact E|exact E']. eapply transition_same; eauto.
  Qed.
End Runs.
