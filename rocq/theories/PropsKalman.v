(** Theorems about kalman_filters.py (C30 to C40). *)
Require Import Reals Lra Lia Psatz Arith Bool Permutation List.
From Verif Require Import PyBase RSum Kalman SpecKalman KalmanFacts KalmanOrder KalmanSeq PredictFacts QRWitness.
Import ListNotations.
Open Scope R_scope.

(** The part of the measurement that is explained by the controls. *)
Definition control_part (nan : R) (n_controls : nat) (controls : nat -> nat -> option R) (params : vec)
    (i : nat) : R :=
  dot n_controls (fun c => match controls i c with Some v => v | None => nan end) params.

(** * C30 *)

(** For every individual with an observed measurement: conditional mean, conditional
    covariance (as u'u) and an upper triangular factor, for every correct QR
    decomposition. *)
Theorem C30_textbook_update :
  forall qr, correct_qr qr ->
  forall nan n_mixtures n_states n_controls states chols loadings control_params sd measurements
         controls logw i m z,
    measurements i = Some z ->
    innovation_var n_states (cov n_states (chols i m)) loadings sd <> 0 ->
    let r := kalman_update qr nan n_mixtures n_states n_controls states chols loadings control_params
               sd measurements controls logw in
    veq n_states (up_states r i m)
        (conditional_mean n_states (states i m) (cov n_states (chols i m)) loadings sd
           (control_part nan n_controls controls control_params i) z) /\
    meq n_states (cov n_states (up_chols r i m))
        (conditional_cov n_states (cov n_states (chols i m)) loadings sd) /\
    upper_triangular n_states (up_chols r i m) /\
    up_residuals r i m
    = Some (z - (dot n_states (states i m) loadings
                 + control_part nan n_controls controls control_params i)) /\
    up_residual_sds r i m
    = Some (sqrt (innovation_var n_states (cov n_states (chols i m)) loadings sd)).
Proof.
  intros qr Hqr nan nm n nc states chols h cp sd meas controls logw i m z Hz Hs r.
  split; [|split; [|split; [|split]]].
  - intros a Ha. now apply up_states_ok.
  - now apply up_cov_ok with z.
  - now apply up_upper_ok with z.
  - now apply up_residuals_ok.
  - now apply up_residual_sds_ok with z.
Qed.
Print Assumptions C30_textbook_update.

(** The innovation variance is positive whenever the measurement error is not zero. *)
Theorem C30_variance_positive : forall n u h sd, sd <> 0 -> 0 < innovation_var n (cov n u) h sd.
Proof. exact innovation_var_pos. Qed.

(** Two factors with P = [[1,1],[1,2]], loadings (1,2), sd 1, one control. *)
Definition ex_chol : mat := fun a b =>
  match a, b with O, O => 1 | O, S O => 1 | S O, S O => 1 | _, _ => 0 end.
Definition ex_load : vec := fun a => match a with O => 1 | S O => 2 | _ => 0 end.

Example C30_nonvacuous :
  correct_qr gram_schmidt /\ local_qr gram_schmidt /\
  let r := kalman_update gram_schmidt 0 1 2 1 (fun _ _ _ => 0) (fun _ _ => ex_chol) ex_load
             (fun _ => 3) 1 (fun _ => Some 17) (fun _ _ => Some 1) (fun _ _ => 0) in
  up_states r O O O = 3 /\ up_states r O O 1%nat = 5 /\
  cov 2 (up_chols r O O) O O = 5 / 14 /\ cov 2 (up_chols r O O) O 1%nat = - (1 / 14) /\
  cov 2 (up_chols r O O) 1%nat 1%nat = 3 / 14.
Proof.
  split; [apply gram_schmidt_correct|]. split; [apply gram_schmidt_local|].
  assert (V : innovation_var 2 (cov 2 ex_chol) ex_load 1 = 14).
  { unfold innovation_var, quad, mat_vec, cov, ex_chol, ex_load. simpl. ring. }
  destruct (C30_textbook_update gram_schmidt gram_schmidt_correct 0 1 2 1 (fun _ _ _ => 0)
              (fun _ _ => ex_chol) ex_load (fun _ => 3) 1 (fun _ => Some 17) (fun _ _ => Some 1)
              (fun _ _ => 0) O O 17 eq_refl ltac:(cbv beta; rewrite V; lra)) as (A & B & _).
  cbv zeta. rewrite (A O), (A 1%nat), (B O O), (B O 1%nat), (B 1%nat 1%nat) by lia.
  unfold conditional_mean, conditional_cov, gain. cbv beta. rewrite V.
  unfold control_part, dot, mat_vec, cov, ex_chol, ex_load. simpl. repeat split; field.
Qed.

(** * C31 *)
Theorem C31_missing_ignored :
  forall qr nan n_mixtures n_states n_controls states chols loadings control_params sd measurements
         controls logw i,
    measurements i = None ->
    let r := kalman_update qr nan n_mixtures n_states n_controls states chols loadings control_params
               sd measurements controls logw in
    up_states r i = states i /\ up_chols r i = chols i /\ up_logw r i = logw i /\
    up_loglikes r i = 0 /\ (forall m, up_residuals r i m = None) /\
    (forall m, up_residual_sds r i m = None).
Proof. intros. now apply update_missing_individual. Qed.
Print Assumptions C31_missing_ignored.

(** Whatever the controls of an individual without measurement contain, and whatever
    value stands for NaN, nothing that is returned for that individual changes. *)
Theorem C31_controls_irrelevant :
  forall qr nan nan' n_mixtures n_states n_controls states chols loadings control_params sd
         measurements controls controls' logw i,
    measurements i = None ->
    let r := kalman_update qr nan n_mixtures n_states n_controls states chols loadings control_params
               sd measurements controls logw in
    let r' := kalman_update qr nan' n_mixtures n_states n_controls states chols loadings
                control_params sd measurements controls' logw in
    up_states r i = up_states r' i /\ up_chols r i = up_chols r' i /\ up_logw r i = up_logw r' i /\
    up_loglikes r i = up_loglikes r' i.
Proof.
  intros qr nan nan' nm n nc states chols h cp sd meas controls controls' logw i E r r'.
  destruct (C31_missing_ignored qr nan nm n nc states chols h cp sd meas controls logw i E)
    as (A & B & C & D & _).
  destruct (C31_missing_ignored qr nan' nm n nc states chols h cp sd meas controls' logw i E)
    as (A' & B' & C' & D' & _).
  subst r r'. rewrite A, A', B, B', C, C', D, D'. repeat split; reflexivity.
Qed.
Print Assumptions C31_controls_irrelevant.

(** Individual 0 is observed and moves, individual 1 has neither measurement nor controls. *)
Example C31_nonvacuous :
  let meas i := match i with O => Some 17 | _ => None end in
  let r := kalman_update gram_schmidt 0 1 2 1 (fun _ _ _ => 0) (fun _ _ => ex_chol) ex_load
             (fun _ => 3) 1 meas (fun i _ => match i with O => Some 1 | _ => None end) (fun _ _ => 0) in
  up_states r O O O = 3 /\ meas 1%nat = None /\ up_states r 1%nat O O = 0.
Proof.
  cbv zeta. split; [|split; reflexivity].
  assert (V : innovation_var 2 (cov 2 ex_chol) ex_load 1 = 14).
  { unfold innovation_var, quad, mat_vec, cov, ex_chol, ex_load. simpl. ring. }
  destruct (C30_textbook_update gram_schmidt gram_schmidt_correct 0 1 2 1 (fun _ _ _ => 0)
              (fun _ _ => ex_chol) ex_load (fun _ => 3) 1
              (fun i => match i with O => Some 17 | _ => None end)
              (fun i _ => match i with O => Some 1 | _ => None end)
              (fun _ _ => 0) O O 17 eq_refl ltac:(cbv beta; rewrite V; lra)) as (A & _).
  rewrite (A O) by lia. unfold conditional_mean, gain. cbv beta. rewrite V.
  unfold control_part, dot, mat_vec, cov, ex_chol, ex_load. simpl. field.
Qed.

(** * C32, C33 *)

(** Weighted sum of the densities of the measurement of individual i. *)
Definition mixture_density (n_mixtures n_states : nat) (states : nat -> vec) (chols : nat -> mat)
    (weights : vec) (loadings : vec) (sd offset z : R) : R :=
  rsum n_mixtures (fun m =>
    weights m * measurement_density n_states (states m) (cov n_states (chols m)) loadings sd offset z).

Theorem C32_bayes :
  forall qr, correct_qr qr ->
  forall nan n_mixtures n_states n_controls states chols loadings control_params sd measurements
         controls logw i z,
    (1 <= n_mixtures)%nat -> sd <> 0 -> measurements i = Some z ->
    rsum n_mixtures (fun m => exp (logw i m)) = 1 ->
    let r := kalman_update qr nan n_mixtures n_states n_controls states chols loadings control_params
               sd measurements controls logw in
    forall m, (m < n_mixtures)%nat ->
      exp (up_logw r i m)
      = exp (logw i m)
        * measurement_density n_states (states i m) (cov n_states (chols i m)) loadings sd
            (control_part nan n_controls controls control_params i) z
        / mixture_density n_mixtures n_states (states i) (chols i) (fun m => exp (logw i m)) loadings sd
            (control_part nan n_controls controls control_params i) z.
Proof.
  intros qr Hqr nan nm n nc states chols h cp sd meas controls logw i z Hnm Hsd Hz Hw r m Hm.
  apply (new_weight qr Hqr nan nm n nc Hnm controls i (mk_fstate states chols logw (fun _ => 0))
           (mk_meas h cp sd meas) z m Hz Hsd Hw Hm).
Qed.
Print Assumptions C32_bayes.

(** After any sequence of updates the weights of every individual sum to one. *)
Theorem C32_normalized :
  forall qr, correct_qr qr ->
  forall nan n_mixtures n_states n_controls controls (updates : list measurement) st i,
    (1 <= n_mixtures)%nat -> Forall (fun ms => ms_sd ms <> 0) updates ->
    rsum n_mixtures (fun m => exp (fs_logw st i m)) = 1 ->
    rsum n_mixtures (fun m =>
      exp (fs_logw (update_all qr nan n_mixtures n_states n_controls controls st updates) i m)) = 1.
Proof.
  intros qr Hqr nan nm n nc controls l st i Hnm F Hw.
  apply (weight_sum_upds qr Hqr nan nm n nc Hnm controls i l st F Hw).
Qed.
Print Assumptions C32_normalized.

Theorem C33_contribution :
  forall qr, correct_qr qr ->
  forall nan n_mixtures n_states n_controls states chols loadings control_params sd measurements
         controls logw i,
    (1 <= n_mixtures)%nat -> sd <> 0 ->
    rsum n_mixtures (fun m => exp (logw i m)) = 1 ->
    let r := kalman_update qr nan n_mixtures n_states n_controls states chols loadings control_params
               sd measurements controls logw in
    up_loglikes r i =
    match measurements i with
    | None => 0
    | Some z =>
        ln (mixture_density n_mixtures n_states (states i) (chols i) (fun m => exp (logw i m)) loadings
              sd (control_part nan n_controls controls control_params i) z)
    end.
Proof.
  intros qr Hqr nan nm n nc states chols h cp sd meas controls logw i Hnm Hsd Hw r.
  destruct (meas i) as [z|] eqn:E.
  - unfold r. rewrite up_loglikes_ok with (z := z) by assumption.
    apply (contribution_ln nan nm n nc Hnm controls i (mk_fstate states chols logw (fun _ => 0))
             (mk_meas h cp sd meas) z Hsd Hw).
  - apply (C31_missing_ignored qr nan nm n nc states chols h cp sd meas controls logw i E).
Qed.
Print Assumptions C33_contribution.

(** Two mixture elements with weights 1/4 and 3/4 at different places. *)
Definition ex_logw : nat -> vec := fun _ m => match m with O => ln (1 / 4) | _ => ln (3 / 4) end.
Example C32_C33_nonvacuous :
  rsum 2 (fun m => exp (ex_logw O m)) = 1 /\
  let r := kalman_update gram_schmidt 0 2 2 0 (fun _ m _ => INR m) (fun _ _ => ex_chol) ex_load
             (fun _ => 3) 1 (fun _ => Some 3) (fun _ _ => Some 1) ex_logw in
  exp (up_loglikes r O)
  = 1 / 4 * normal_density 0 14 3 + 3 / 4 * normal_density 3 14 3 /\
  exp (up_logw r O O)
  = 1 / 4 * normal_density 0 14 3 / (1 / 4 * normal_density 0 14 3 + 3 / 4 * normal_density 3 14 3).
Proof.
  assert (W : rsum 2 (fun m => exp (ex_logw O m)) = 1).
  { unfold ex_logw. simpl. rewrite !exp_ln by lra. lra. }
  split; [exact W|]. cbv zeta.
  assert (D : mixture_density 2 2 (fun m _ => INR m) (fun _ => ex_chol) (fun m => exp (ex_logw O m)) ex_load
                1 (control_part 0 0 (fun _ _ => Some 1) (fun _ => 3) O) 3
              = 1 / 4 * normal_density 0 14 3 + 3 / 4 * normal_density 3 14 3).
  { unfold mixture_density, ex_logw. simpl. rewrite !exp_ln by lra.
    unfold measurement_density, innovation_var, quad, mat_vec, cov, ex_chol, ex_load, dot, control_part. simpl.
    rewrite Rplus_0_l. f_equal; f_equal; f_equal; cbv [dot rsum]; lra. }
  split.
  - rewrite (C33_contribution gram_schmidt gram_schmidt_correct) by (exact W || lia || lra).
    rewrite exp_ln; [exact D|]. cbv beta. rewrite D.
    assert (0 < normal_density 0 14 3) by (apply normal_density_pos; lra).
    assert (0 < normal_density 3 14 3) by (apply normal_density_pos; lra). lra.
  - rewrite (C32_bayes gram_schmidt gram_schmidt_correct) with (z := 3) by (exact W || lia || lra || reflexivity).
    cbv beta. rewrite D. f_equal. unfold ex_logw. rewrite exp_ln by lra. f_equal.
    unfold measurement_density, innovation_var, quad, mat_vec, cov, ex_chol, ex_load, dot, control_part. simpl.
    f_equal; cbv [dot rsum]; lra.
Qed.

(** * C34 *)

(** Any reordering of the measurement updates of a period leads to the same states,
    covariances, mixture weights and total log likelihood. *)
Theorem C34_order_irrelevant :
  forall qr, correct_qr qr ->
  forall nan n_mixtures n_states n_controls controls (updates updates' : list measurement) st i,
    (1 <= n_mixtures)%nat -> Forall (fun ms => ms_sd ms <> 0) updates ->
    Permutation updates updates' ->
    same_state n_mixtures n_states i
      (update_all qr nan n_mixtures n_states n_controls controls st updates)
      (update_all qr nan n_mixtures n_states n_controls controls st updates').
Proof.
  intros qr Hqr nan nm n nc controls l l' st i Hnm F P.
  apply (upds_permutation qr Hqr nan nm n nc Hnm controls i l l' P F st).
Qed.
Print Assumptions C34_order_irrelevant.

(** The same holds if the Cholesky factors differ but describe the same covariance,
    for instance because they come from another QR implementation. *)
Theorem C34_only_the_distribution_matters :
  forall qr, correct_qr qr ->
  forall nan n_mixtures n_states n_controls controls (updates : list measurement) st st' i,
    (1 <= n_mixtures)%nat -> Forall (fun ms => ms_sd ms <> 0) updates ->
    same_state n_mixtures n_states i st st' ->
    same_state n_mixtures n_states i
      (update_all qr nan n_mixtures n_states n_controls controls st updates)
      (update_all qr nan n_mixtures n_states n_controls controls st' updates).
Proof.
  intros qr Hqr nan nm n nc controls l st st' i Hnm F H.
  apply (upds_same qr Hqr nan nm n nc Hnm controls i l st st' F H).
Qed.
Print Assumptions C34_only_the_distribution_matters.

Example C34_nonvacuous :
  let a := mk_meas ex_load (fun _ => 3) 1 (fun _ => Some 3) in
  let b := mk_meas (fun _ => 1) (fun _ => 0) 2 (fun _ => Some 4) in
  let c := mk_meas (fun _ => 1) (fun _ => 0) 2 (fun _ => None) in
  Forall (fun ms => ms_sd ms <> 0) [a; b; c] /\ Permutation [a; b; c] [b; c; a] /\ a <> b.
Proof.
  cbv zeta. split; [|split].
  - repeat constructor; simpl; lra.
  - apply Permutation_cons_app with (l1 := [_; _]) (l2 := []). reflexivity.
  - intros E. assert (H : ms_sd (mk_meas ex_load (fun _ => 3) 1 (fun _ => Some 3)) = 2) by (rewrite E; reflexivity).
    simpl in H. lra.
Qed.

(** * C35 *)

(** What is returned for individual i of one batch equals what is returned for
    individual j of another batch, whatever the rest of the batches contains, if the
    two have the same states, factors, weights, measurement and controls. *)
Theorem C35_individuals_independent :
  forall qr, local_qr qr ->
  forall nan n_mixtures n_states n_controls loadings control_params sd
         states chols measurements controls logw states' chols' measurements' controls' logw' i j,
    (1 <= n_mixtures)%nat ->
    (forall m, (m < n_mixtures)%nat ->
       veq n_states (states i m) (states' j m) /\ meq n_states (chols i m) (chols' j m) /\
       logw i m = logw' j m) ->
    measurements i = measurements' j ->
    (forall c, (c < n_controls)%nat -> controls i c = controls' j c) ->
    let r := kalman_update qr nan n_mixtures n_states n_controls states chols loadings control_params
               sd measurements controls logw in
    let r' := kalman_update qr nan n_mixtures n_states n_controls states' chols' loadings
                control_params sd measurements' controls' logw' in
    (forall m, (m < n_mixtures)%nat ->
       veq n_states (up_states r i m) (up_states r' j m) /\
       meq n_states (up_chols r i m) (up_chols r' j m) /\
       up_logw r i m = up_logw r' j m /\ up_residuals r i m = up_residuals r' j m /\
       up_residual_sds r i m = up_residual_sds r' j m) /\
    up_loglikes r i = up_loglikes r' j.
Proof.
  intros qr L nan nm n nc h cp sd st ch me co lw st' ch' me' co' lw' i j Hnm H Hm Hc r r'.
  assert (D : forall m, (m < nm)%nat -> dot n (st i m) h = dot n (st' j m) h).
  { intros m Hlt. destruct (H m Hlt) as (A & _). apply rsum_ext. intros a Ha. now rewrite A. }
  assert (Q : forall m, (m < nm)%nat -> forall a b, (a < S n)%nat -> (b < S n)%nat ->
    qr (S n) (S n) (update_matrix sd (fun a => dot n (ch i m a) h) (ch i m)) a b
    = qr (S n) (S n) (update_matrix sd (fun a => dot n (ch' j m a) h) (ch' j m)) a b).
  { intros m Hlt. apply L. destruct (H m Hlt) as (_ & B & _).
    intros [|a] [|b] Ha Hb; cbn [update_matrix]; try reflexivity.
    - apply rsum_ext. intros k Hk. now rewrite B by lia.
    - apply B; lia. }
  subst r r'. unfold kalman_update, isfinite.
  cbn -[Nat.leb]. rewrite <- Hm. destruct (me i) as [z|]; cbn -[Nat.leb].
  2:{ split; [|reflexivity]. intros m Hlt. destruct (H m Hlt) as (A & B & C). repeat split; assumption. }
  assert (OO : dot nc (fun c => to_number nan (co i c)) cp = dot nc (fun c => to_number nan (co' j c)) cp).
  { apply rsum_ext. intros c Hlt. now rewrite Hc. }
  assert (W : forall m, (m < nm)%nat -> forall x,
    norm_logpdf (z - (dot n (st i m) h + x)) 0
      (Rabs (qr (S n) (S n) (update_matrix sd (fun a => dot n (ch i m a) h) (ch i m)) O O))
    = norm_logpdf (z - (dot n (st' j m) h + x)) 0
      (Rabs (qr (S n) (S n) (update_matrix sd (fun a => dot n (ch' j m a) h) (ch' j m)) O O))).
  { intros m Hlt x. rewrite (D m Hlt), (Q m Hlt) by lia. reflexivity. }
  assert (SS : logsumexp nm (fun m => norm_logpdf (z - (dot n (st i m) h
                + dot nc (fun c => to_number nan (co i c)) cp)) 0
      (Rabs (qr (S n) (S n) (update_matrix sd (fun a => dot n (ch i m a) h) (ch i m)) O O)) + lw i m)
    = logsumexp nm (fun m => norm_logpdf (z - (dot n (st' j m) h
                + dot nc (fun c => to_number nan (co' j c)) cp)) 0
      (Rabs (qr (S n) (S n) (update_matrix sd (fun a => dot n (ch' j m a) h) (ch' j m)) O O)) + lw' j m)).
  { apply logsumexp_ext. intros m Hlt. rewrite (W m Hlt), OO. f_equal. now apply H. }
  split.
  - intros m Hlt. destruct (H m Hlt) as (A & B & C). repeat split.
    + intros a Ha. rewrite (A a Ha), (D m Hlt), OO, !(Q m Hlt) by lia. reflexivity.
    + intros a b Ha Hb. apply (Q m Hlt); lia.
    + destruct (2 <=? nm)%nat; [|assumption]. rewrite SS, (W m Hlt), C, OO. reflexivity.
    + now rewrite (D m Hlt), OO.
    + rewrite (Q m Hlt) by lia. reflexivity.
  - destruct (2 <=? nm)%nat; [exact SS|]. rewrite (W O) by lia. now rewrite OO.
Qed.
Print Assumptions C35_individuals_independent.

Example C35_nonvacuous :
  local_qr gram_schmidt /\
  let meas i := match i with O => Some 3 | 1%nat => Some 4 | _ => None end in
  let meas' i := match i with 7%nat => Some 4 | _ => Some 100 end in
  meas 1%nat = meas' 7%nat /\ meas O <> meas' O.
Proof.
  split; [apply gram_schmidt_local|]. split; [reflexivity|]. intros E. injection E. lra.
Qed.

(** * C36 *)

(** Sigma points exist, their weights sum to one, their weighted mean and scatter are
    the state and its covariance, and observed factors are carried unchanged. *)
Theorem C36_sigma_points :
  forall n_obs n_mixtures n n_observed kappa states chols observed,
    0 < INR n + kappa ->
    n_observed = O \/ n_mixtures = 1%nat ->
    let w := sigma_weights n kappa in
    rsum (2 * n + 1) w = 1 /\
    exists pts,
      calculate_sigma_points n_obs n_mixtures n n_observed states chols (sigma_scaling_factor n kappa)
        observed = Ok pts /\
      forall i m, (m < n_mixtures)%nat ->
        (forall f, (f < n)%nat ->
           weighted_mean (2 * n + 1) w (fun s => pts i m s f) = states i m f) /\
        (forall f g, (f < n)%nat -> (g < n)%nat ->
           weighted_scatter (2 * n + 1) w (fun s => pts i m s f) (fun s => pts i m s g)
           = cov n (chols i m) f g) /\
        (forall s o, (s < 2 * n + 1)%nat -> (o < n_observed)%nat -> pts i m s (n + o)%nat = observed i o).
Proof.
  intros n_obs nm n no kappa states chols obs Hk Hshape w.
  split; [now apply weights_sum|].
  destruct (sigma_points_ok n_obs nm n no states chols (sigma_scaling_factor n kappa) obs ltac:(tauto))
    as (pts & E & P).
  exists pts. split; [exact E|]. intros i m Hm.
  assert (M : forall f, (f < n)%nat -> weighted_mean (2 * n + 1) w (fun s => pts i m s f) = states i m f).
  { intros f Hf. apply symmetric_mean with (d := fun j => chols i m j f * sigma_scaling_factor n kappa);
      [assumption| | |].
    - rewrite P by lia. now apply point_0.
    - intros j Hj. rewrite P by lia. now apply point_plus.
    - intros j Hj. rewrite P by lia. now apply point_minus. }
  split; [exact M|split].
  - intros f g Hf Hg. unfold weighted_scatter. rewrite (M f Hf), (M g Hg).
    apply symmetric_scatter; [assumption| | | | |].
    + rewrite P by lia. rewrite point_0 by assumption. ring.
    + intros j Hj. rewrite P by lia. rewrite point_plus by assumption. ring.
    + intros j Hj. rewrite P by lia. rewrite point_minus by assumption. ring.
    + intros j Hj. rewrite P by lia. rewrite point_plus by assumption. ring.
    + intros j Hj. rewrite P by lia. rewrite point_minus by assumption. ring.
  - intros s o Hs Ho. rewrite P by assumption. rewrite point_observed.
    destruct Hshape as [H|H]; [lia|]. f_equal. unfold flat. lia.
Qed.
Print Assumptions C36_sigma_points.

(** The default kappa = 2, two latent and one observed factor. *)
Example C36_nonvacuous :
  0 < INR 2 + 2 /\ sigma_scaling_factor 2 2 = 2 /\ sigma_weights 2 2 O = 1 / 2 /\
  sigma_weights 2 2 3%nat = 1 / 8 /\
  exists pts, calculate_sigma_points 5 1 2 1 (fun i _ f => INR (i + f)) (fun _ _ => ex_chol) 2
                (fun i _ => INR (10 + i)) = Ok pts /\
              pts 3%nat O 1%nat O = 5 /\ pts 3%nat O 4%nat 1%nat = 2 /\ pts 3%nat O 4%nat 2%nat = 13.
Proof.
  split; [simpl; lra|]. split.
  { unfold sigma_scaling_factor. simpl. replace (2 + (1 + 1)) with (2 * 2) by ring. apply sqrt_square. lra. }
  split; [unfold sigma_weights; simpl; field|]. split; [unfold sigma_weights; simpl; field|].
  eexists. split; [reflexivity|]. cbv -[Rplus Rmult IZR INR Ropp]. simpl. repeat split; lra.
Qed.

(** * C37 *)

(** The image of the anchored state under the affine map (a, b), unanchored. *)
Definition affine_image (n n_observed : nat) (a : mat) (b : vec) (scale const : nat -> vec)
    (x observed : vec) : vec :=
  fun f =>
    (rsum n (fun g => a f g * (x g * scale O g + const O g))
     + rsum n_observed (fun o => a f (n + o)%nat
                                 * (observed o * scale O (n + o)%nat + const O (n + o)%nat))
     + b f - const 1%nat f) / scale 1%nat f.

(** The matrix that maps (unanchored) states to (unanchored) next states. *)
Definition effective (a : mat) (scale : nat -> vec) : mat :=
  fun f g => a f g * scale O g / scale 1%nat f.

Theorem C37_exact_for_affine :
  forall qr, correct_qr qr ->
  forall n_obs n_mixtures n n_observed kappa states chols func a b sds scale const observed,
    0 < INR n + kappa ->
    n_observed = O \/ n_mixtures = 1%nat ->
    (forall v f, (f < n)%nat -> func v f = rsum (n + n_observed) (fun g => a f g * v g) + b f) ->
    (forall f, (f < n)%nat -> scale 1%nat f <> 0) ->
    exists ps pc,
      kalman_predict qr n_obs n_mixtures n n_observed states chols (sigma_scaling_factor n kappa)
        (sigma_weights n kappa) func sds scale const observed = Ok (ps, pc) /\
      forall i m, (m < n_mixtures)%nat ->
        veq n (ps i m) (affine_image n n_observed a b scale const (states i m) (observed i)) /\
        upper_triangular n (pc i m) /\
        (0 <= kappa ->
         meq n (cov n (pc i m))
           (fun f g =>
              rsum n (fun c => rsum n (fun d =>
                effective a scale f c * cov n (chols i m) c d * effective a scale g d))
              + if Nat.eq_dec f g then sds f * sds f else 0)).
Proof.
  intros qr Hqr n_obs nm n no kappa states chols func a b sds scale const obs Hk Hshape Hf Hsc.
  assert (Hloc : local_transition n (n + no) func).
  { intros v w Hvw f Hlt. rewrite !Hf by assumption. f_equal. apply rsum_ext. intros g Hg. now rewrite Hvw. }
  destruct (predict_ok qr Hqr n_obs nm n no states chols (sigma_scaling_factor n kappa)
              (sigma_weights n kappa) func sds scale const obs Hloc Hshape) as (ps & pc & E & H).
  exists ps, pc. split; [exact E|]. intros i m Hm. destruct (H i m Hm) as (A & B & C). clear H E.
  set (x := states i m) in *. set (u := chols i m) in *. set (c := sigma_scaling_factor n kappa) in *.
  set (im := fun s f => image n states chols c func scale const obs i m s f).
  (* the image of a sigma point as image of the mean plus a deviation *)
  assert (I : forall s f (d : vec), (f < n)%nat ->
    (forall g, (g < n)%nat -> sigma_point n x u c s g = x g + d g) ->
    im s f = affine_image n no a b scale const x (obs i) f + rsum n (fun g => effective a scale f g * d g)).
  { intros s f d Hlt Hd. unfold im, image, anchored_transition. rewrite Hf by assumption.
    rewrite rsum_app.
    rewrite (rsum_ext n _ (fun g => a f g * (x g * scale O g + const O g) + a f g * scale O g * d g)).
    2:{ intros g Hg. unfold all_factors. rewrite (proj2 (Nat.ltb_lt g n) Hg). fold x u. rewrite Hd by assumption. ring. }
    rewrite (rsum_ext no _ (fun o => a f (n + o)%nat * (obs i o * scale O (n + o)%nat + const O (n + o)%nat))).
    2:{ intros o Ho. unfold all_factors. rewrite (proj2 (Nat.ltb_ge (n + o) n)) by lia.
        replace (n + o - n)%nat with o by lia. ring. }
    rewrite rsum_plus. unfold affine_image, effective.
    rewrite (rsum_ext n (fun g => a f g * scale O g / scale 1%nat f * d g)
               (fun g => a f g * scale O g * d g * / scale 1%nat f)).
    2:{ intros g Hg. field. now apply Hsc. }
    rewrite rsum_scal_r. field. now apply Hsc. }
  assert (I0 : forall f, (f < n)%nat -> im O f = affine_image n no a b scale const x (obs i) f).
  { intros f Hlt. rewrite (I O f (fun _ => 0) Hlt).
    - rewrite (rsum_zero n); [ring|]. intros; ring.
    - intros g Hg. unfold sigma_point. simpl. ring. }
  set (e := fun j f => rsum n (fun g => effective a scale f g * u j g)).
  assert (Ip : forall f j, (f < n)%nat -> (j < n)%nat ->
    im (1 + j)%nat f = affine_image n no a b scale const x (obs i) f + e j f * c).
  { intros f j Hlt Hj. rewrite (I (1 + j)%nat f (fun g => c * u j g) Hlt).
    - f_equal. unfold e. rewrite <- rsum_scal_r. apply rsum_ext. intros; ring.
    - intros g Hg. unfold sigma_point. cbn [Nat.add Nat.eqb]. rewrite (proj2 (Nat.leb_le (S j) n)) by lia.
      now replace (S j - 1)%nat with j by lia. }
  assert (Im : forall f j, (f < n)%nat -> (j < n)%nat ->
    im (n + 1 + j)%nat f = affine_image n no a b scale const x (obs i) f - e j f * c).
  { intros f j Hlt Hj. rewrite (I (n + 1 + j)%nat f (fun g => - (c * u j g)) Hlt).
    - unfold Rminus. f_equal. unfold e. rewrite <- rsum_scal_r, <- rsum_opp. apply rsum_ext. intros; ring.
    - intros g Hg. unfold sigma_point. rewrite (proj2 (Nat.eqb_neq (n + 1 + j) 0)) by lia.
      rewrite (proj2 (Nat.leb_gt (n + 1 + j) n)) by lia.
      replace (n + 1 + j - (n + 1))%nat with j by lia. ring. }
  assert (M : forall f, (f < n)%nat ->
    weighted_mean (2 * n + 1) (sigma_weights n kappa) (fun s => im s f)
    = affine_image n no a b scale const x (obs i) f).
  { intros f Hlt. apply symmetric_mean with (d := fun j => e j f * c); auto. }
  split; [|split; [exact B|]].
  - intros f Hlt. rewrite A by assumption. now apply M.
  - intros K f g Hlt Hlt'. rewrite C by (assumption || (intros; now apply weights_nonneg)).
    f_equal. change (weighted_scatter (2 * n + 1) (sigma_weights n kappa) (fun s => im s f) (fun s => im s g)
      = rsum n (fun c0 => rsum n (fun d => effective a scale f c0 * cov n u c0 d * effective a scale g d))).
    unfold weighted_scatter. rewrite !M by assumption.
    rewrite (symmetric_scatter n kappa (fun s => im s f - affine_image n no a b scale const x (obs i) f)
               (fun s => im s g - affine_image n no a b scale const x (obs i) g)
               (fun j => e j f) (fun j => e j g)).
    + unfold e, cov.
      rewrite (rsum_ext n _ (fun j => rsum n (fun p => rsum n (fun q =>
        effective a scale f p * (u j p * u j q) * effective a scale g q)))).
      2:{ intros j Hj. rewrite rsum_prod. apply rsum_ext; intros p Hp; apply rsum_ext; intros q Hq. ring. }
      rewrite rsum_swap. apply rsum_ext. intros p Hp. rewrite rsum_swap. apply rsum_ext. intros q Hq.
      rewrite <- rsum_scal_l, <- rsum_scal_r. apply rsum_ext. intros; ring.
    + assumption.
    + rewrite I0 by assumption. ring.
    + intros j Hj. rewrite Ip by assumption. unfold c. ring.
    + intros j Hj. rewrite Im by assumption. unfold c. ring.
    + intros j Hj. rewrite Ip by assumption. unfold c. ring.
    + intros j Hj. rewrite Im by assumption. unfold c. ring.
Qed.
Print Assumptions C37_exact_for_affine.

(** * C38 *)

(** The transformed sigma points of individual i and mixture element m. *)
Definition transformed_points (n : nat) (states : nat -> nat -> vec) (chols : nat -> nat -> mat) (c : R)
    (func : vec -> vec) (scale const : nat -> vec) (observed : nat -> vec) (i m s f : nat) : R :=
  anchored_transition func scale const
    (all_factors n (sigma_point n (states i m) (chols i m) c s) (observed i)) f.

Theorem C38_scatter_plus_shocks :
  forall qr, correct_qr qr ->
  forall n_obs n_mixtures n n_observed states chols c w func sds scale const observed,
    n_observed = O \/ n_mixtures = 1%nat ->
    local_transition n (n + n_observed) func ->
    (forall s, (s < 2 * n + 1)%nat -> 0 <= w s) ->
    exists ps pc,
      kalman_predict qr n_obs n_mixtures n n_observed states chols c w func sds scale const observed
      = Ok (ps, pc) /\
      forall i m, (m < n_mixtures)%nat ->
        let t := transformed_points n states chols c func scale const observed i m in
        (forall f, (f < n)%nat -> ps i m f = weighted_mean (2 * n + 1) w (fun s => t s f)) /\
        upper_triangular n (pc i m) /\
        (forall f g, (f < n)%nat -> (g < n)%nat ->
           cov n (pc i m) f g
           = weighted_scatter (2 * n + 1) w (fun s => t s f) (fun s => t s g)
             + if Nat.eq_dec f g then sds f * sds f else 0) /\
        (forall v, rsum n (fun f => v f * v f * (sds f * sds f)) <= quad n (cov n (pc i m)) v).
Proof.
  intros qr Hqr n_obs nm n no states chols c w func sds scale const obs Hshape Hloc Hw.
  destruct (predict_ok qr Hqr n_obs nm n no states chols c w func sds scale const obs Hloc Hshape)
    as (ps & pc & E & H).
  exists ps, pc. split; [exact E|]. intros i m Hm t. destruct (H i m Hm) as (A & B & C).
  split; [exact A|]. split; [exact B|]. specialize (C Hw). split; [exact C|].
  intros v. set (p := cov n (pc i m)) in *.
  set (dev := fun f s => t s f - weighted_mean (2 * n + 1) w (fun s => t s f)).
  assert (Q : quad n p v
    = rsum (2 * n + 1) (fun s => w s * (dot n v (fun f => dev f s) * dot n v (fun f => dev f s)))
      + rsum n (fun f => v f * v f * (sds f * sds f))).
  { unfold quad, mat_vec.
    rewrite (rsum_ext n _ (fun f => rsum n (fun g => rsum (2 * n + 1) (fun s =>
               w s * ((v f * dev f s) * (v g * dev g s)))) + v f * v f * (sds f * sds f))).
    - rewrite rsum_plus. f_equal.
      transitivity (rsum n (fun f => rsum (2 * n + 1) (fun s => rsum n (fun g =>
          w s * ((v f * dev f s) * (v g * dev g s)))))).
      { apply rsum_ext. intros f Hf. apply rsum_swap. }
      rewrite rsum_swap. apply rsum_ext. intros s Hs. unfold dot. rewrite rsum_prod, <- rsum_scal_l.
      apply rsum_ext. intros f Hf. rewrite <- rsum_scal_l. reflexivity.
    - intros f Hf. rewrite <- rsum_scal_l.
      rewrite (rsum_ext n _ (fun g => rsum (2 * n + 1) (fun s => w s * ((v f * dev f s) * (v g * dev g s)))
               + (v f * v g * (if Nat.eq_dec f g then sds f * sds f else 0)))).
      + rewrite rsum_plus. f_equal. rewrite (rsum_single n f); [|assumption|].
        * destruct (Nat.eq_dec f f); [ring|congruence].
        * intros g Hg Hne. destruct (Nat.eq_dec f g); [congruence|ring].
      + intros g Hg. unfold p. rewrite C by assumption. unfold weighted_scatter.
        change (fun s => image n states chols c func scale const obs i m s f) with (fun s => t s f).
        change (fun s => image n states chols c func scale const obs i m s g) with (fun s => t s g).
        set (wf := weighted_mean (2 * n + 1) w (fun s => t s f)).
        set (wg := weighted_mean (2 * n + 1) w (fun s => t s g)).
        rewrite (rsum_ext (2 * n + 1) (fun s => w s * (v f * dev f s * (v g * dev g s)))
                   (fun s => v f * v g * (w s * ((t s f - wf) * (t s g - wg))))).
        2:{ intros s Hs. unfold dev, wf, wg. ring. }
        rewrite rsum_scal_l. change (fun s => image n states chols c func scale const obs i m s f) with (fun s => t s f).
        unfold t, transformed_points, wf, wg, t, transformed_points, image. ring. }
  rewrite Q. assert (0 <= rsum (2 * n + 1) (fun s => w s * (dot n v (fun f => dev f s) * dot n v (fun f => dev f s)))).
  { apply rsum_nonneg. intros s Hs. apply Rmult_le_pos; [now apply Hw|]. apply Rle_0_sqr. }
  lra.
Qed.
Print Assumptions C38_scatter_plus_shocks.

(** kappa >= 0 gives non-negative weights; the affine map (x0 + 2 x1 + obs, x1 + 1) of
    two latent and one observed factor. *)
Definition ex_func : vec -> vec :=
  fun v f => match f with O => v O + 2 * v 1%nat + v 2%nat | _ => v 1%nat + 1 end.
Definition ex_a : mat := fun f g =>
  match f, g with O, O => 1 | O, S O => 2 | O, _ => 1 | _, S O => 1 | _, _ => 0 end.
Example C37_C38_nonvacuous :
  (forall s, (s < 5)%nat -> 0 <= sigma_weights 2 2 s) /\
  local_transition 2 3 ex_func /\
  (forall v f, (f < 2)%nat ->
     ex_func v f = rsum (2 + 1) (fun g => ex_a f g * v g) + match f with O => 0 | _ => 1 end) /\
  exists ps pc,
    kalman_predict gram_schmidt 4 1 2 1 (fun i _ f => INR f) (fun _ _ => ex_chol)
      (sigma_scaling_factor 2 2) (sigma_weights 2 2) ex_func (fun _ => 3)
      (fun t _ => match t with O => 1 | _ => 2 end) (fun _ _ => 0) (fun i _ => INR i) = Ok (ps, pc) /\
    ps 3%nat O O = 5 / 2 /\ cov 2 (pc 3%nat O) O O = 13 / 4 + 9.
Proof.
  assert (L : forall v f, (f < 2)%nat ->
     ex_func v f = rsum (2 + 1) (fun g => ex_a f g * v g) + match f with O => 0 | _ => 1 end).
  { intros v [|[|f]] Hf; [| |lia]; unfold ex_func, ex_a; simpl; ring. }
  split; [|split; [|split; [exact L|]]].
  - intros s _. apply weights_nonneg; simpl; lra.
  - intros v w H f Hf. rewrite !L by assumption. f_equal. apply rsum_ext. intros g Hg. now rewrite H.
  - destruct (C37_exact_for_affine gram_schmidt gram_schmidt_correct 4 1 2 1 2 (fun i _ f => INR f)
      (fun _ _ => ex_chol) ex_func ex_a (fun f => match f with O => 0 | _ => 1 end) (fun _ => 3)
      (fun t _ => match t with O => 1 | _ => 2 end) (fun _ _ => 0) (fun i _ => INR i)
      ltac:(simpl; lra) ltac:(now right) L ltac:(intros; lra)) as (ps & pc & E & H).
    exists ps, pc. split; [exact E|]. destruct (H 3%nat O ltac:(lia)) as (A & _ & C).
    rewrite (A O), (C ltac:(lra) O O) by lia.
    unfold affine_image, effective, cov, ex_a, ex_chol. simpl. split; field.
Qed.

(** * C39 *)

(** The row a transition function receives for sigma point s: latent factors are
    scaled and shifted with the anchoring parameters of the input period, observed
    factors arrive as they are in the data, and results are mapped back with the
    parameters of the output period. *)
Theorem C39_anchored_transition :
  forall qr, correct_qr qr ->
  forall n_obs n_mixtures n n_observed states chols c w func sds scale const observed,
    n_observed = O \/ n_mixtures = 1%nat ->
    local_transition n (n + n_observed) func ->
    (forall o, (o < n_observed)%nat -> scale O (n + o)%nat = 1 /\ const O (n + o)%nat = 0) ->
    exists ps pc,
      kalman_predict qr n_obs n_mixtures n n_observed states chols c w func sds scale const observed
      = Ok (ps, pc) /\
      forall i m f, (m < n_mixtures)%nat -> (f < n)%nat ->
        ps i m f
        = weighted_mean (2 * n + 1) w (fun s =>
            (func (all_factors n
                     (fun g => sigma_point n (states i m) (chols i m) c s g * scale O g + const O g)
                     (observed i)) f
             - const 1%nat f) / scale 1%nat f).
Proof.
  intros qr Hqr n_obs nm n no states chols c w func sds scale const obs Hshape Hloc Hobs.
  destruct (predict_ok qr Hqr n_obs nm n no states chols c w func sds scale const obs Hloc Hshape)
    as (ps & pc & E & H).
  exists ps, pc. split; [exact E|]. intros i m f Hm Hf. destruct (H i m Hm) as (A & _).
  rewrite A by assumption. apply rsum_ext. intros s Hs. f_equal. unfold image, anchored_transition.
  f_equal. f_equal. apply Hloc; [|assumption]. intros g Hg. unfold all_factors.
  destruct (g <? n)%nat eqn:Q; [reflexivity|]. apply Nat.ltb_ge in Q.
  destruct (Hobs (g - n)%nat ltac:(lia)) as [S C].
  replace (n + (g - n))%nat with g in S, C by lia. rewrite S, C. ring.
Qed.
Print Assumptions C39_anchored_transition.

(** Without anchoring the transition function is applied to the raw factors. *)
Theorem C39_no_anchoring :
  forall qr, correct_qr qr ->
  forall n_obs n_mixtures n n_observed states chols c w func sds scale const observed,
    n_observed = O \/ n_mixtures = 1%nat ->
    local_transition n (n + n_observed) func ->
    (forall t f, scale t f = 1 /\ const t f = 0) ->
    exists ps pc,
      kalman_predict qr n_obs n_mixtures n n_observed states chols c w func sds scale const observed
      = Ok (ps, pc) /\
      forall i m f, (m < n_mixtures)%nat -> (f < n)%nat ->
        ps i m f
        = weighted_mean (2 * n + 1) w (fun s =>
            func (all_factors n (sigma_point n (states i m) (chols i m) c s) (observed i)) f).
Proof.
  intros qr Hqr n_obs nm n no states chols c w func sds scale const obs Hshape Hloc Hone.
  destruct (C39_anchored_transition qr Hqr n_obs nm n no states chols c w func sds scale const obs
              Hshape Hloc (fun o _ => Hone O (n + o)%nat)) as (ps & pc & E & H).
  exists ps, pc. split; [exact E|]. intros i m f Hm Hf. rewrite H by assumption.
  apply rsum_ext. intros s Hs. f_equal. destruct (Hone 1%nat f) as [-> ->].
  replace (func (all_factors n (fun g => sigma_point n (states i m) (chols i m) c s g * scale O g + const O g) (obs i)) f)
    with (func (all_factors n (sigma_point n (states i m) (chols i m) c s) (obs i)) f); [field|].
  apply Hloc; [|assumption]. intros g Hg. unfold all_factors. destruct (g <? n)%nat; [|reflexivity].
  destruct (Hone O g) as [-> ->]. ring.
Qed.
Print Assumptions C39_no_anchoring.

Example C39_nonvacuous :
  let scale (t f : nat) := if (f =? 2)%nat then 1 else match t with O => 3 | _ => 2 end in
  let const (t f : nat) := if (f =? 2)%nat then 0 else 5 in
  local_transition 2 (2 + 1) ex_func /\
  (forall o, (o < 1)%nat -> scale O (2 + o)%nat = 1 /\ const O (2 + o)%nat = 0) /\
  scale O 1%nat = 3 /\ const O O = 5.
Proof.
  cbv zeta. split; [apply C37_C38_nonvacuous|]. split; [|split; reflexivity].
  intros o Ho. assert (o = O) by lia. subst. split; reflexivity.
Qed.

(** * C40 *)

(** Sigma points (and hence predictions) can only be computed if there is one mixture
    element or no observed factor (or no individual). *)
Theorem C40_refuted :
  forall n_obs n_mixtures n n_observed states chols scale observed,
    (1 <= n_obs)%nat -> (2 <= n_mixtures)%nat -> (1 <= n_observed)%nat ->
    calculate_sigma_points n_obs n_mixtures n n_observed states chols scale observed = Err ShapeError.
Proof. intros. apply sigma_points_err; lia. Qed.
Print Assumptions C40_refuted.

Theorem C40_predict_refuted :
  forall qr n_obs n_mixtures n n_observed states chols c w func sds scale const observed,
    (1 <= n_obs)%nat -> (2 <= n_mixtures)%nat -> (1 <= n_observed)%nat ->
    kalman_predict qr n_obs n_mixtures n n_observed states chols c w func sds scale const observed
    = Err ShapeError.
Proof. intros. unfold kalman_predict. rewrite C40_refuted by assumption. reflexivity. Qed.
Print Assumptions C40_predict_refuted.

(** What remains true: one mixture element with any number of observed factors, or
    any number of mixture elements without observed factors. *)
Theorem C40_computable_partial :
  forall n_obs n_mixtures n n_observed states chols scale observed,
    n_observed = O \/ n_mixtures = 1%nat ->
    exists pts,
      calculate_sigma_points n_obs n_mixtures n n_observed states chols scale observed = Ok pts /\
      forall i m s f, (m < n_mixtures)%nat -> (s < 2 * n + 1)%nat -> (f < n + n_observed)%nat ->
        pts i m s f = all_factors n (sigma_point n (states i m) (chols i m) scale s) (observed i) f.
Proof.
  intros n_obs nm n no states chols scale obs H.
  destruct (sigma_points_ok n_obs nm n no states chols scale obs ltac:(tauto)) as (pts & E & P).
  exists pts. split; [exact E|]. intros i m s f Hm Hs Hf. rewrite P by assumption.
  now apply point_row with (no := no).
Qed.
Print Assumptions C40_computable_partial.

Example C40_nonvacuous :
  calculate_sigma_points 3 2 1 1 (fun _ _ _ => 0) (fun _ _ _ _ => 1) 1 (fun _ _ => 1) = Err ShapeError /\
  exists pts, calculate_sigma_points 3 2 1 0 (fun _ _ _ => 0) (fun _ _ _ _ => 1) 1 (fun _ _ => 1) = Ok pts.
Proof. split; [reflexivity|]. eexists. reflexivity. Qed.
