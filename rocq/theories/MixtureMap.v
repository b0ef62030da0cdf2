(** Two runs of the filter whose beliefs are the same mixture of normal distributions,
    written with different elements. *)
Require Import Reals Qreals String Arith Bool List Lia Lra FunctionalExtensionality.
From Verif Require Import PyBase ListFacts RSum Kalman KalmanFacts PredictFacts LikelihoodLocal Likelihood SpecLikelihood.
Import ListNotations.
Open Scope R_scope.

Section MixtureMap.
  Variable qr : qr_function.
  Variable nan : R.
  Variable tfunc : dict (list R) -> vec -> vec.
  Variables (n_obs nm nm' n no nc : nat) (kappa : R) (inp : inputs) (i : nat) (part : nat -> nat).
  Hypothesis Hi : (i < n_obs)%nat.
  Hypothesis Hnm : (1 <= nm)%nat.
  Hypothesis Hnm' : (1 <= nm')%nat.
  Hypothesis Hpart : forall m', (m' < nm')%nat -> (part m' < nm)%nat.
  Hypothesis Hobs : no = O -> forall t j f, in_observed inp t j f = None.

  Definition spread_weights (lw lw' : vec) : Prop :=
    (forall m, (m < nm)%nat -> exp (lw m) = rsum nm' (fun m' => if (part m' =? m)%nat then exp (lw' m') else 0)) /\
    (nm = 1%nat -> exp (lw O) = 1).

  Lemma sum_over_parts (W W' x : nat -> R) :
    (forall m, (m < nm)%nat -> W m = rsum nm' (fun m' => if (part m' =? m)%nat then W' m' else 0)) ->
    rsum nm (fun m => W m * x m) = rsum nm' (fun m' => W' m' * x (part m')).
  Proof.
    intros HW.
    rewrite (rsum_ext nm _ (fun m => rsum nm' (fun m' => if (part m' =? m)%nat then W' m' * x m else 0))).
    2: { intros m Hm. rewrite (HW m Hm), Rmult_comm, <- rsum_scal_l. apply rsum_ext. intros m' _.
         destruct (part m' =? m)%nat; ring. }
    rewrite rsum_swap. apply rsum_ext. intros m' Hm'.
    rewrite (rsum_single nm (part m')); [now rewrite Nat.eqb_refl|now apply Hpart|].
    intros m Hm Hne. apply Nat.eqb_neq in Hne. rewrite Nat.eqb_sym in Hne. now rewrite Hne.
  Qed.

  Lemma onto lw lw' : spread_weights lw lw' -> nm' = 1%nat -> nm = 1%nat.
  Proof.
    intros [Hw _] E. destruct (Nat.eq_dec nm 1) as [|Hne]; [assumption|exfalso]. subst nm'.
    pose proof (Hw O ltac:(lia)) as A. pose proof (Hw 1%nat ltac:(lia)) as B. cbn [rsum] in A, B.
    pose proof (exp_pos (lw O)). pose proof (exp_pos (lw 1%nat)).
    destruct (Nat.eqb_spec (part O) O) as [E0|E0]; [|lra]. rewrite E0 in B. cbn in B. lra.
  Qed.

  Definition spread (b b' : belief) : Prop :=
    (forall m', (m' < nm')%nat -> be_states b' i m' = be_states b i (part m') /\ be_chols b' i m' = be_chols b i (part m')) /\
    spread_weights (be_logw b i) (be_logw b' i).

  Definition spread_record (r r' : record) : Prop :=
    re_contribution r i = re_contribution r' i /\
    (forall m', (m' < nm')%nat -> re_states r' i m' = re_states r i (part m') /\
       re_residuals r' i m' = re_residuals r i (part m') /\ re_residual_sds r' i m' = re_residual_sds r i (part m')) /\
    spread_weights (re_logw r i) (re_logw r' i).

  Definition mix_loglike (k : nat) (L lw : vec) : R :=
    if (2 <=? k)%nat then logsumexp k (fun m => L m + lw m) else L O.
  Definition mix_logw (k : nat) (L lw : vec) : vec :=
    fun m => if (2 <=? k)%nat then L m + lw m - mix_loglike k L lw else lw m.

  Lemma mix_loglike_exp k L lw : (1 <= k)%nat -> (k = 1%nat -> exp (lw O) = 1) ->
    exp (mix_loglike k L lw) = rsum k (fun m => exp (lw m) * exp (L m)).
  Proof.
    intros Hk H1. unfold mix_loglike. destruct (Nat.leb_spec 2 k) as [H2|H2].
    - rewrite logsumexp_ln by assumption. rewrite exp_ln.
      + apply rsum_ext. intros m _. rewrite exp_plus. ring.
      + apply rsum_pos; [assumption|]. intros; apply exp_pos.
    - assert (k = 1%nat) as -> by lia. cbn [rsum]. rewrite H1 by reflexivity. ring.
  Qed.

  Lemma mix_logw_exp k L lw m : (m < k)%nat -> (k = 1%nat -> exp (lw O) = 1) ->
    exp (mix_logw k L lw m) = exp (lw m) * exp (L m) / exp (mix_loglike k L lw).
  Proof.
    intros Hm H1. unfold mix_logw. destruct (Nat.leb_spec 2 k) as [H2|H2].
    - unfold Rminus. rewrite !exp_plus, exp_Ropp. unfold Rdiv. ring.
    - assert (k = 1%nat) as -> by lia. assert (m = O) as -> by lia. unfold mix_loglike. cbn.
      field. apply Rgt_not_eq, exp_pos.
  Qed.

  Lemma single_weight lw lw' : spread_weights lw lw' -> nm' = 1%nat -> exp (lw' O) = 1.
  Proof.
    intros H E. pose proof (onto _ _ H E) as E1. destruct H as [Hw H1]. specialize (H1 E1).
    pose proof (Hw O ltac:(lia)) as A. pose proof (Hpart O ltac:(lia)) as P. rewrite E in A. cbn [rsum] in A.
    replace (part O) with O in A by lia. cbn in A. lra.
  Qed.

  Lemma weights_update lw lw' L L' : spread_weights lw lw' ->
    (forall m', (m' < nm')%nat -> L' m' = L (part m')) ->
    mix_loglike nm L lw = mix_loglike nm' L' lw' /\ spread_weights (mix_logw nm L lw) (mix_logw nm' L' lw').
  Proof.
    intros H HL. pose proof (single_weight _ _ H) as H1'. destruct H as [Hw H1].
    assert (E : mix_loglike nm L lw = mix_loglike nm' L' lw').
    { apply exp_inv. rewrite !mix_loglike_exp by assumption.
      rewrite (sum_over_parts (fun m => exp (lw m)) (fun m' => exp (lw' m')) (fun m => exp (L m)) Hw).
      apply rsum_ext. intros m' Hm'. now rewrite HL. }
    split; [exact E|split].
    - intros m Hm. rewrite mix_logw_exp by assumption. rewrite (Hw m Hm).
      unfold Rdiv. rewrite Rmult_assoc, Rmult_comm, <- rsum_scal_l. apply rsum_ext. intros m' Hm'.
      destruct (Nat.eqb_spec (part m') m) as [<-|_]; [|ring].
      rewrite mix_logw_exp, E, HL by assumption. unfold Rdiv. ring.
    - intros E1. unfold mix_logw. rewrite E1. cbn. now apply H1.
  Qed.

  Lemma update_spread a k t b b' : spread b b' ->
    spread (fst (update_event qr nan nm n nc inp a k t b)) (fst (update_event qr nan nm' n nc inp a k t b')) /\
    spread_record (snd (update_event qr nan nm n nc inp a k t b)) (snd (update_event qr nan nm' n nc inp a k t b')).
  Proof.
    intros [Hb Hw]. unfold update_event, spread, spread_record. cbn [fst snd].
    cbn [be_states be_chols be_logw re_contribution re_states re_logw re_residuals re_residual_sds].
    unfold kalman_update. cbv zeta.
    cbn [up_states up_chols up_logw up_loglikes up_residuals up_residual_sds].
    destruct (in_values inp k i) as [y|] eqn:Ey.
    2: { assert (Hs : forall m', (m' < nm')%nat -> be_states b' i m' = be_states b i (part m')) by (intros; now apply Hb).
         assert (Hc : forall m', (m' < nm')%nat -> be_chols b' i m' = be_chols b i (part m')) by (intros; now apply Hb).
         destruct a; cbn [isfinite]; repeat split; intros; rewrite ?Ey; cbn [isfinite];
           rewrite ?Hs, ?Hc by assumption; try reflexivity; apply Hw; assumption. }
    cbn [isfinite to_number].
    match goal with |- context [if (2 <=? nm)%nat then logsumexp nm (fun m => @?F m + be_logw b i m) else ?z] => set (L := F) end.
    match goal with |- context [if (2 <=? nm')%nat then logsumexp nm' (fun m => @?F m + be_logw b' i m) else ?z] => set (L' := F) end.
    assert (HL : forall m', (m' < nm')%nat -> L' m' = L (part m')).
    { intros m' Hm'. unfold L, L'. destruct (Hb m' Hm') as [-> ->]. reflexivity. }
    destruct (weights_update _ _ L L' Hw HL) as [E1 E2].
    assert (Hst : forall m', (m' < nm')%nat -> be_states b' i m' = be_states b i (part m')) by (intros; now apply Hb).
    assert (Hch : forall m', (m' < nm')%nat -> be_chols b' i m' = be_chols b i (part m')) by (intros; now apply Hb).
    split; [split; [|exact E2]|split; [exact E1|split; [|exact E2]]].
    - intros m' Hm'. destruct a; cbv beta; rewrite ?Ey; cbn [isfinite to_number]; rewrite ?Hst, ?Hch by assumption; auto.
    - intros m' Hm'. destruct a; cbv beta; rewrite ?Ey; cbn [isfinite to_number]; rewrite ?Hst, ?Hch by assumption; auto.
  Qed.

  Lemma transition_spread t b b' r r' : spread b b' ->
    transition_event qr nan tfunc n_obs nm n no kappa inp t b = Ok r ->
    transition_event qr nan tfunc n_obs nm' n no kappa inp t b' = Ok r' -> spread r r'.
  Proof.
    intros [Hb Hw] E E'. unfold transition_event in E, E'.
    destruct (kalman_predict qr n_obs nm n no (be_states b) _ _ _ _ _ _ _ _) as [p|] eqn:Ep; [|discriminate].
    destruct (kalman_predict qr n_obs nm' n no (be_states b') _ _ _ _ _ _ _ _) as [p'|] eqn:Ep'; [|discriminate].
    cbn [rbind] in E, E'. injection E as <-. injection E' as <-.
    unfold spread. cbn [be_states be_chols be_logw].
    pose proof (onto _ _ Hw) as Hon. split; [|exact Hw].
    assert (Ho : (1 <= n_obs)%nat) by lia.
    destruct (predict_entries _ _ _ _ _ _ _ _ _ _ _ _ _ _ _ Ho Ep) as (Hc & pts & Hp & Hf & Hs).
    destruct (predict_entries _ _ _ _ _ _ _ _ _ _ _ _ _ _ _ Ho Ep') as (Hc' & pts' & Hp' & Hf' & Hs').
    intros m' Hm'. pose proof (Hpart m' Hm') as Hm.
    assert (Hpts : forall s, (s < 2 * n + 1)%nat -> pts' i m' s = pts i (part m') s).
    { intros s Hs0. extensionality f. rewrite Hp, Hp' by assumption. unfold point.
      destruct (Hb m' Hm') as [-> ->]. destruct (f <? n)%nat; [reflexivity|].
      destruct (Nat.eq_dec no 0) as [E0|E0]; [now rewrite !Hobs by assumption|].
      destruct Hc as [|Hc]; [contradiction|]. destruct Hc' as [|Hc']; [contradiction|].
      rewrite Hc, Hc'. replace (part m') with m' by lia. reflexivity. }
    assert (Htr : forall s f, (s < 2 * n + 1)%nat ->
      transform_sigma_points nm' (2 * n + 1) pts' (tfunc (in_coeffs inp t))
        (fun r => in_scaling inp (t + r)%nat) (fun r => in_constants inp (t + r)%nat) i m' s f
      = transform_sigma_points nm (2 * n + 1) pts (tfunc (in_coeffs inp t))
        (fun r => in_scaling inp (t + r)%nat) (fun r => in_constants inp (t + r)%nat) i (part m') s f).
    { intros s f Hs0. unfold transform_sigma_points.
      rewrite !(flat_div _ _ s Hs0), !(flat_mod _ _ s Hs0).
      rewrite (flat_div _ _ m' Hm'), (flat_mod _ _ m' Hm'), (flat_div _ _ _ Hm), (flat_mod _ _ _ Hm).
      now rewrite Hpts. }
    assert (Hms : forall f, fst p' i m' f = fst p i (part m') f).
    { intros f. rewrite Hf, Hf'. apply rsum_ext. intros s Hs0. now rewrite Htr. }
    split; [now extensionality f|].
    rewrite Hs, Hs'. f_equal. extensionality a. extensionality f. unfold predict_matrix.
    destruct (Nat.ltb_spec a (2 * n + 1)); [|reflexivity].
    rewrite Htr by assumption. specialize (Hms f). rewrite Hf, Hf' in Hms. cbv beta zeta in Hms |- *. now rewrite Hms.
  Qed.

  Lemma run_spread evs : forall b b' recs recs', spread b b' ->
    run qr nan tfunc n_obs nm n no nc kappa inp evs b = Ok recs ->
    run qr nan tfunc n_obs nm' n no nc kappa inp evs b' = Ok recs' -> Forall2 spread_record recs recs'.
  Proof.
    induction evs as [|ev evs IH]; intros b b' recs recs' Hb E E'; cbn [run] in E, E'.
    - injection E as <-. injection E' as <-. constructor.
    - destruct ev as [k t|k t|t].
      + destruct (run _ _ _ _ nm _ _ _ _ _ evs _) as [rest|] eqn:Er in E; [|discriminate].
        destruct (run _ _ _ _ nm' _ _ _ _ _ evs _) as [rest'|] eqn:Er' in E'; [|discriminate].
        cbn [rbind] in E, E'. injection E as <-. injection E' as <-.
        destruct (update_spread false k t _ _ Hb) as [A B]. constructor; [exact B|]. exact (IH _ _ _ _ A Er Er').
      + destruct (run _ _ _ _ nm _ _ _ _ _ evs _) as [rest|] eqn:Er in E; [|discriminate].
        destruct (run _ _ _ _ nm' _ _ _ _ _ evs _) as [rest'|] eqn:Er' in E'; [|discriminate].
        cbn [rbind] in E, E'. injection E as <-. injection E' as <-.
        destruct (update_spread true k t _ _ Hb) as [A B]. constructor; [exact B|]. exact (IH _ _ _ _ A Er Er').
      + destruct (transition_event _ _ _ _ nm _ _ _ _ t b) as [r|] eqn:Er; [|discriminate].
        destruct (transition_event _ _ _ _ nm' _ _ _ _ t b') as [r'|] eqn:Er'; [|discriminate].
        cbn [rbind] in E, E'. exact (IH _ _ _ _ (transition_spread _ _ _ _ _ Hb Er Er') E E').
  Qed.
End MixtureMap.
