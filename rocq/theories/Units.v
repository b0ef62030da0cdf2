(** How the filter behaves when a measurement is recorded in other units and from another
    origin: z' = b z + a. *)
Require Import Reals Lra Lia Psatz Arith Bool String List.
From Verif Require Import PyBase ListFacts RSum Kalman SpecKalman KalmanFacts KalmanOrder KalmanSeq PredictFacts QRSigns Renormalization.
Import ListNotations.
Open Scope R_scope.

Section Scaled.
  Variables (n : nat) (x : vec) (p : mat) (h : vec) (sd off z a b : R).
  Hypothesis Hb : b <> 0.
  Hypothesis Hpos : 0 < innovation_var n p h sd.
  Let h' : vec := fun k => b * h k.
  Let sd' := Rabs b * sd.
  Let off' := b * off + a.
  Let z' := b * z + a.

  Lemma scaled_mat_vec k : mat_vec n p h' k = b * mat_vec n p h k.
  Proof. unfold mat_vec. rewrite <- rsum_scal_l. apply rsum_ext. intros j Hj. unfold h'. ring. Qed.

  Lemma scaled_innovation : innovation_var n p h' sd' = b * b * innovation_var n p h sd.
  Proof.
    unfold innovation_var, quad, sd'.
    replace (Rabs b * sd * (Rabs b * sd)) with (Rabs b * Rabs b * (sd * sd)) by ring.
    rewrite <- Rabs_mult, (Rabs_pos_eq (b * b)) by nra.
    rewrite Rmult_plus_distr_l. f_equal. rewrite <- rsum_scal_l. apply rsum_ext. intros k Hk.
    rewrite scaled_mat_vec. unfold h'. ring.
  Qed.

  Lemma scaled_residual : z' - (dot n x h' + off') = b * (z - (dot n x h + off)).
  Proof.
    replace (dot n x h') with (b * dot n x h); [unfold z', off'; ring|].
    unfold dot. rewrite <- rsum_scal_l. apply rsum_ext. intros k Hk. unfold h'. ring.
  Qed.

  Lemma scaled_mean k : conditional_mean n x p h' sd' off' z' k = conditional_mean n x p h sd off z k.
  Proof.
    unfold conditional_mean, gain. rewrite scaled_residual, scaled_innovation, scaled_mat_vec. field. split; [lra|exact Hb].
  Qed.

  Lemma scaled_cov k l : conditional_cov n p h' sd' k l = conditional_cov n p h sd k l.
  Proof.
    unfold conditional_cov, gain. rewrite scaled_innovation, scaled_mat_vec.
    replace (rsum n (fun c => h' c * p c l)) with (b * rsum n (fun c => h c * p c l)).
    - field. split; [lra|exact Hb].
    - rewrite <- rsum_scal_l. apply rsum_ext. intros c Hc. unfold h'. ring.
  Qed.

  Lemma scaled_ldens : ldens n x p h' sd' off' z' = ldens n x p h sd off z - ln (Rabs b).
  Proof.
    unfold ldens. rewrite scaled_residual, scaled_innovation.
    assert (Ha : 0 < Rabs b) by now apply Rabs_pos_lt.
    assert (E : b * b = Rabs b * Rabs b) by (rewrite <- Rabs_mult, Rabs_pos_eq; [reflexivity|nra]).
    replace (2 * PI * (b * b * innovation_var n p h sd)) with (Rabs b * Rabs b * (2 * PI * innovation_var n p h sd)) by (rewrite E; ring).
    assert (Hp : 0 < 2 * PI * innovation_var n p h sd) by (pose proof PI_RGT_0; nra).
    rewrite ln_mult by nra. rewrite ln_mult by assumption.
    replace (b * (z - (dot n x h + off)) * (b * (z - (dot n x h + off))) / (b * b * innovation_var n p h sd))
      with ((z - (dot n x h + off)) * (z - (dot n x h + off)) / innovation_var n p h sd) by (field; split; [lra|exact Hb]).
    field. lra.
  Qed.
End Scaled.

Section Update.
  Variable qr : qr_function.
  Hypothesis Hqr : correct_qr qr.
  Variable nan : R.
  Variables (nm n nc i : nat).
  Variables (st st' : nat -> nat -> vec) (ch ch' : nat -> nat -> mat) (h h' cp cp' : vec) (sd sd' a b : R)
    (meas meas' : nat -> option R) (controls controls' : nat -> nat -> option R) (lw lw' : nat -> vec).
  Hypothesis Hsd : sd <> 0.
  Hypothesis Hb : b <> 0.
  Hypothesis Hnm : (1 <= nm)%nat.
  Hypothesis Hs : signed nm n i st st' ch ch'.
  Hypothesis Hw : forall m, (m < nm)%nat -> lw i m = lw' i m.
  Hypothesis Hh : forall k, (k < n)%nat -> h' k = b * h k.
  Hypothesis Hsd' : sd' = Rabs b * sd.
  Let off := dot nc (fun k => to_number nan (controls i k)) cp.
  Let off' := dot nc (fun k => to_number nan (controls' i k)) cp'.
  Hypothesis Hmeas : meas' i = option_map (fun z => b * z + a) (meas i).
  Hypothesis Hoff : meas i <> None -> off' = b * off + a.
  Let up := kalman_update qr nan nm n nc st ch h cp sd meas controls lw.
  Let up' := kalman_update qr nan nm n nc st' ch' h' cp' sd' meas' controls' lw'.

  Let pos m : 0 < innovation_var n (cov n (ch i m)) h sd.
  Proof. apply innovation_var_pos, Hsd. Qed.
  Let Hsd0 : sd' <> 0.
  Proof. rewrite Hsd'. apply Rmult_integral_contrapositive. split; [now apply Rabs_no_R0|exact Hsd]. Qed.

  Lemma units_regular m : (m < nm)%nat -> nonsingular n (up_chols up i m).
  Proof.
    intros Hm. refine (update_nonsingular qr Hqr nan nm n nc i st st ch ch h cp sd meas controls lw Hsd _ m Hm).
    intros k Hk. split; [now intros ? ?|]. split; [now apply Hs|apply signs_refl].
  Qed.

  Lemma units_states : signed nm n i (up_states up) (up_states up') (up_chols up) (up_chols up').
  Proof.
    intros m Hm. destruct (Hs m Hm) as (A & N & B). pose proof (signs_cov _ _ _ B) as C.
    split; [|split; [now apply units_regular|]].
    - destruct (meas i) as [z|] eqn:Ez; cbn [option_map] in Hmeas.
      + specialize (Hoff ltac:(discriminate)). intros k Hk. unfold up, up'.
        rewrite (up_states_ok qr Hqr nan nm n nc st ch h cp sd meas controls lw i z Ez m k)
          by (try exact Hk; apply Rgt_not_eq, innovation_var_pos, Hsd).
        rewrite (up_states_ok qr Hqr nan nm n nc st' ch' h' cp' sd' meas' controls' lw' i _ Hmeas m k)
          by (try exact Hk; apply Rgt_not_eq, innovation_var_pos, Hsd0).
        fold off off'. rewrite Hoff, (loadings_mean n _ _ h' (fun k => b * h k) _ _ _ k Hh), Hsd'.
        rewrite <- (conditional_mean_ext n _ _ _ _ (fun k => b * h k) _ _ _ A C k Hk).
        symmetry. now apply scaled_mean.
      + destruct (update_missing_individual qr nan nm n nc st ch h cp sd meas controls lw i Ez) as (E & _).
        destruct (update_missing_individual qr nan nm n nc st' ch' h' cp' sd' meas' controls' lw' i Hmeas) as (E' & _).
        unfold up, up'. now rewrite E, E'.
    - destruct (meas i) as [z|] eqn:Ez; cbn [option_map] in Hmeas.
      + apply triangular_unique; [| |now apply units_regular|].
        * apply (up_upper_ok qr Hqr nan nm n nc st ch h cp sd meas controls lw i z Ez m).
        * apply (up_upper_ok qr Hqr nan nm n nc st' ch' h' cp' sd' meas' controls' lw' i _ Hmeas m).
        * intros k l Hk Hl. unfold up, up'.
          rewrite (up_cov_ok qr Hqr nan nm n nc st ch h cp sd meas controls lw i z Ez m)
            by (try assumption; apply Rgt_not_eq, innovation_var_pos, Hsd).
          rewrite (up_cov_ok qr Hqr nan nm n nc st' ch' h' cp' sd' meas' controls' lw' i _ Hmeas m)
            by (try assumption; apply Rgt_not_eq, innovation_var_pos, Hsd0).
          rewrite (loadings_cov n _ h' (fun k => b * h k) sd' k l Hh), Hsd'.
          rewrite <- (conditional_cov_ext n _ _ (fun k => b * h k) _ C k l Hk Hl).
          symmetry. now apply scaled_cov.
      + destruct (update_missing_individual qr nan nm n nc st ch h cp sd meas controls lw i Ez) as (_ & E & _).
        destruct (update_missing_individual qr nan nm n nc st' ch' h' cp' sd' meas' controls' lw' i Hmeas) as (_ & E' & _).
        unfold up, up'. now rewrite E, E'.
  Qed.

  Lemma units_ldens m z : (m < nm)%nat -> meas i = Some z ->
    ldens n (st' i m) (cov n (ch' i m)) h' sd' off' (b * z + a) = ldens n (st i m) (cov n (ch i m)) h sd off z - ln (Rabs b).
  Proof.
    intros Hm Ez. destruct (Hs m Hm) as (A & N & B). pose proof (signs_cov _ _ _ B) as C.
    rewrite (Hoff ltac:(congruence)), Hsd'.
    rewrite (loadings_ldens n _ _ h' (fun k => b * h k) _ _ _ Hh).
    rewrite <- (ldens_ext n _ _ _ _ (fun k => b * h k) _ _ _ A C).
    now apply scaled_ldens.
  Qed.

  Lemma units_loglikes : up_loglikes up' i = up_loglikes up i - (if isfinite (meas i) then ln (Rabs b) else 0).
  Proof.
    pose proof units_ldens as D. destruct (meas i) as [z|] eqn:Ez; cbn [option_map isfinite] in *.
    - unfold up, up'.
      rewrite (up_loglikes_ok qr Hqr nan nm n nc st ch h cp sd meas controls lw i z Ez).
      rewrite (up_loglikes_ok qr Hqr nan nm n nc st' ch' h' cp' sd' meas' controls' lw' i _ Hmeas).
      destruct (2 <=? nm)%nat.
      + rewrite <- logsumexp_shift by exact Hnm.
        apply logsumexp_ext. intros m Hm. rewrite (Hw m Hm). fold off off'. rewrite (D m z Hm eq_refl). ring.
      + now apply D.
    - destruct (update_missing_individual qr nan nm n nc st ch h cp sd meas controls lw i Ez) as (_ & _ & _ & E & _).
      destruct (update_missing_individual qr nan nm n nc st' ch' h' cp' sd' meas' controls' lw' i Hmeas) as (_ & _ & _ & E' & _).
      unfold up, up'. rewrite E, E'. ring.
  Qed.

  Lemma units_rest m : (m < nm)%nat ->
    up_logw up' i m = up_logw up i m /\ up_residuals up' i m = option_map (Rmult b) (up_residuals up i m) /\
    up_residual_sds up' i m = option_map (Rmult (Rabs b)) (up_residual_sds up i m).
  Proof.
    intros Hm. pose proof units_loglikes as L. pose proof (fun z => units_ldens m z Hm) as D0. unfold up, up' in *.
    destruct (Hs m Hm) as (A & _ & B). pose proof (signs_cov _ _ _ B) as C.
    destruct (meas i) as [z|] eqn:Ez; cbn [option_map isfinite] in *.
    - pose proof (D0 z eq_refl) as D. specialize (Hoff ltac:(discriminate)).
      rewrite (up_logw_ok qr Hqr nan nm n nc st ch h cp sd meas controls lw i z Ez).
      rewrite (up_logw_ok qr Hqr nan nm n nc st' ch' h' cp' sd' meas' controls' lw' i _ Hmeas).
      rewrite (up_residuals_ok qr nan nm n nc st ch h cp sd meas controls lw i z Ez).
      rewrite (up_residuals_ok qr nan nm n nc st' ch' h' cp' sd' meas' controls' lw' i _ Hmeas).
      rewrite (up_residual_sds_ok qr Hqr nan nm n nc st ch h cp sd meas controls lw i z Ez).
      rewrite (up_residual_sds_ok qr Hqr nan nm n nc st' ch' h' cp' sd' meas' controls' lw' i _ Hmeas).
      rewrite L, (Hw m Hm). fold off off'. rewrite D. cbn [option_map]. split; [|split].
      + destruct (2 <=? nm)%nat; ring.
      + f_equal. rewrite Hoff.
        rewrite <- (dot_ext n _ _ (fun k => b * h k) h' A) by (intros k Hk; symmetry; now apply Hh).
        apply scaled_residual.
      + f_equal. rewrite (loadings_innovation n _ h' (fun k => b * h k) sd' Hh), Hsd'.
        rewrite <- (innovation_var_ext n _ _ (fun k => b * h k) _ C). rewrite scaled_innovation.
        rewrite sqrt_mult by (try nra; left; apply pos). f_equal.
        fold (Rsqr b). now rewrite sqrt_Rsqr_abs.
    - destruct (update_missing_individual qr nan nm n nc st ch h cp sd meas controls lw i Ez) as (_ & _ & E & _ & R1 & R2).
      destruct (update_missing_individual qr nan nm n nc st' ch' h' cp' sd' meas' controls' lw' i Hmeas) as (_ & _ & E' & _ & R1' & R2').
      rewrite E, E', R1, R1', R2, R2'. cbn [option_map]. rewrite (Hw m Hm). auto.
  Qed.
End Update.
