(** The update refines the textbook update, and textbook updates commute. *)
Require Import Reals Lra Lia Psatz Arith Bool Permutation List.
From Verif Require Import PyBase RSum Kalman SpecKalman KalmanFacts.
Import ListNotations.
Open Scope R_scope.

(** Log density of the measurement. *)
Definition ldens (n : nat) (x : vec) (p : mat) (h : vec) (sd offset z : R) : R :=
  let s := innovation_var n p h sd in
  let e := z - (dot n x h + offset) in
  - (ln (2 * PI * s) + e * e / s) / 2.

Lemma ldens_exp n x p h sd off z : 0 < innovation_var n p h sd ->
  exp (ldens n x p h sd off z) = measurement_density n x p h sd off z.
Proof.
  intros Hs. unfold measurement_density. rewrite <- normal_density_shift.
  rewrite <- (norm_logpdf_density _ _ (sqrt (innovation_var n p h sd))); [|assumption|].
  2:{ apply sqrt_sqrt. lra. }
  unfold ldens, norm_logpdf. rewrite sqrt_sqrt by lra. f_equal. rewrite Rminus_0_r. reflexivity.
Qed.

Lemma ldens_ln n x p h sd off z : 0 < innovation_var n p h sd ->
  ldens n x p h sd off z = ln (measurement_density n x p h sd off z).
Proof. intros Hs. rewrite <- ldens_exp by assumption. now rewrite ln_exp. Qed.

Lemma ldens_ext n x y p q h sd off z : veq n x y -> meq n p q ->
  ldens n x p h sd off z = ldens n y q h sd off z.
Proof.
  intros Hx Hp. unfold ldens. rewrite (innovation_var_ext n p q h sd Hp).
  replace (dot n x h) with (dot n y h); [reflexivity|]. apply rsum_ext. intros a Ha. now rewrite Hx.
Qed.

Section Refine.
  Variable qr : qr_function.
  Hypothesis Hqr : correct_qr qr.
  Variable nan : R.
  Variables (nm n nc : nat).

  Variables (states : nat -> nat -> vec) (chols : nat -> nat -> mat) (h cp : vec) (sd : R)
            (meas : nat -> option R) (controls : nat -> nat -> option R) (logw : nat -> vec).
  Let up := kalman_update qr nan nm n nc states chols h cp sd meas controls logw.
  Variable i : nat.
  Let offset := dot nc (fun c => to_number nan (controls i c)) cp.
  Let ld m := ldens n (states i m) (cov n (chols i m)) h sd offset.

  Lemma update_missing_individual : meas i = None ->
    up_states up i = states i /\ up_chols up i = chols i /\ up_logw up i = logw i /\
    up_loglikes up i = 0 /\
    (forall m, up_residuals up i m = None) /\ (forall m, up_residual_sds up i m = None).
  Proof. intros E. unfold up, kalman_update. cbn. rewrite E. cbn. repeat split; reflexivity. Qed.

  Variable z : R.
  Hypothesis Hz : meas i = Some z.

  Let hyp m := innovation_var n (cov n (chols i m)) h sd <> 0.

  Lemma up_states_ok m a : hyp m -> (a < n)%nat ->
    up_states up i m a = conditional_mean n (states i m) (cov n (chols i m)) h sd offset z a.
  Proof.
    intros Hm Ha. unfold up, kalman_update, isfinite. cbn -[Nat.leb]. rewrite Hz. cbn -[Nat.leb].
    unfold conditional_mean.
    rewrite (gain_ok n (chols i m) h sd _ (Hqr _ _ _ (le_n _)) Hm a Ha). reflexivity.
  Qed.

  Lemma up_cov_ok m : hyp m ->
    meq n (cov n (up_chols up i m)) (conditional_cov n (cov n (chols i m)) h sd).
  Proof.
    intros Hm a b Ha Hb. unfold up, kalman_update, isfinite. cbn -[Nat.leb]. rewrite Hz. cbn -[Nat.leb].
    apply (new_cov n (chols i m) h sd _ (Hqr _ _ _ (le_n _)) Hm a b Ha Hb).
  Qed.

  Lemma up_upper_ok m : upper_triangular n (up_chols up i m).
  Proof.
    unfold up, kalman_update, isfinite. cbn -[Nat.leb]. rewrite Hz. cbn -[Nat.leb].
    apply (new_upper n (chols i m) h sd _ (Hqr _ _ _ (le_n _))).
  Qed.

  Definition the_root m :=
    qr (S n) (S n) (update_matrix sd (fun a => dot n (chols i m a) h) (chols i m)) O O.

  Lemma the_root_sq m :
    Rabs (the_root m) * Rabs (the_root m) = innovation_var n (cov n (chols i m)) h sd.
  Proof. apply (abs_root n (chols i m) h sd _ (Hqr _ _ _ (le_n _))). Qed.

  Lemma logpdf_ok m :
    norm_logpdf (z - (dot n (states i m) h + offset)) 0 (Rabs (the_root m)) = ld m z.
  Proof. unfold norm_logpdf, ld, ldens. rewrite the_root_sq, Rminus_0_r. reflexivity. Qed.

  Lemma up_residuals_ok m :
    up_residuals up i m = Some (z - (dot n (states i m) h + offset)).
  Proof. unfold up, kalman_update, isfinite. cbn. rewrite Hz. reflexivity. Qed.

  Lemma up_residual_sds_ok m :
    up_residual_sds up i m = Some (sqrt (innovation_var n (cov n (chols i m)) h sd)).
  Proof.
    unfold up, kalman_update, isfinite. cbn -[Nat.leb]. rewrite Hz. cbn -[Nat.leb]. f_equal.
    symmetry. rewrite <- the_root_sq. rewrite sqrt_square by apply Rabs_pos. reflexivity.
  Qed.

  Lemma rmax_ext k f g : (forall j, (j < k)%nat -> f j = g j) -> rmax k f = rmax k g.
  Proof.
    destruct k as [|k]; [reflexivity|]. induction k as [|k IH]; intros H; [apply H; lia|].
    cbn [rmax] in *. rewrite IH by (intros; apply H; lia). now rewrite (H (S k)) by lia.
  Qed.

  Lemma logsumexp_ext k f g : (forall j, (j < k)%nat -> f j = g j) -> logsumexp k f = logsumexp k g.
  Proof.
    intros H. unfold logsumexp. rewrite (rmax_ext k f g H). f_equal. f_equal. apply rsum_ext.
    intros j Hj. now rewrite H.
  Qed.

  Lemma up_loglikes_ok :
    up_loglikes up i =
    if (2 <=? nm)%nat then logsumexp nm (fun m => ld m z + logw i m) else ld O z.
  Proof.
    unfold up, kalman_update, isfinite. cbn -[Nat.leb]. rewrite Hz. cbn -[Nat.leb].
    destruct (2 <=? nm)%nat.
    - apply logsumexp_ext. intros m Hm. f_equal. apply logpdf_ok.
    - apply logpdf_ok.
  Qed.

  Lemma up_logw_ok m :
    up_logw up i m =
    if (2 <=? nm)%nat then ld m z + logw i m - up_loglikes up i else logw i m.
  Proof.
    rewrite up_loglikes_ok.
    unfold up, kalman_update, isfinite. cbn -[Nat.leb]. rewrite Hz. cbn -[Nat.leb].
    destruct (2 <=? nm)%nat eqn:E; [|reflexivity].
    f_equal; [f_equal; apply logpdf_ok|].
    apply logsumexp_ext. intros m' Hm. f_equal. apply logpdf_ok.
  Qed.
End Refine.

(** ** Two textbook updates *)
Section Two.
  Variables (n : nat) (p : mat) (h g : vec) (sh sg : R).
  Hypothesis Hp : symmetric n p.
  Let c := bil n p h g.
  Let sa := innovation_var n p h sh.
  Let sb := innovation_var n p g sg.
  Let pa := mat_vec n p h.
  Let pb := mat_vec n p g.
  Hypothesis Hsa : sa <> 0.

  Lemma bil_sym : bil n p h g = bil n p g h.
  Proof.
    unfold bil, mat_vec.
    transitivity (rsum n (fun a => rsum n (fun b => h a * (p a b * g b)))).
    { apply rsum_ext. intros. now rewrite rsum_scal_l. }
    rewrite rsum_swap. apply rsum_ext. intros b Hb. rewrite <- rsum_scal_l. apply rsum_ext.
    intros a Ha. rewrite (Hp a b Ha Hb). ring.
  Qed.

  Lemma ccov_eq a b : (a < n)%nat -> (b < n)%nat ->
    conditional_cov n p h sh a b = p a b - pa a * pa b / sa.
  Proof.
    intros Ha Hb. unfold conditional_cov, gain. fold sa. fold (pa a).
    replace (rsum n (fun c0 => h c0 * p c0 b)) with (pa b).
    - field. assumption.
    - unfold pa, mat_vec. apply rsum_ext. intros d Hd. rewrite (Hp b d Hb Hd). ring.
  Qed.

  Lemma ccov_mat_vec a : (a < n)%nat ->
    mat_vec n (conditional_cov n p h sh) g a = pb a - pa a * c / sa.
  Proof.
    intros Ha. unfold mat_vec at 1.
    transitivity (rsum n (fun b => p a b * g b - pa a / sa * (g b * pa b))).
    { apply rsum_ext. intros b Hb. rewrite ccov_eq by assumption. field. assumption. }
    rewrite rsum_minus, rsum_scal_l. fold (bil n p g h). unfold c. rewrite bil_sym.
    unfold pb, mat_vec, bil, pa. field. assumption.
  Qed.

  Lemma ccov_var : innovation_var n (conditional_cov n p h sh) g sg = sb - c * c / sa.
  Proof.
    unfold innovation_var at 1, quad.
    transitivity (rsum n (fun a => g a * pb a - c / sa * (g a * pa a)) + sg * sg).
    { f_equal. apply rsum_ext. intros a Ha. rewrite ccov_mat_vec by assumption. field. assumption. }
    rewrite rsum_minus, rsum_scal_l. change (rsum n (fun a => g a * pa a)) with (bil n p g h).
    rewrite <- bil_sym. fold c. unfold sb, innovation_var, quad. fold pb. field. assumption.
  Qed.

  Lemma cmean_dot x off z :
    dot n (conditional_mean n x p h sh off z) g
    = dot n x g + c / sa * (z - (dot n x h + off)).
  Proof.
    unfold dot at 1, conditional_mean, gain. fold sa.
    set (e := z - (dot n x h + off)).
    transitivity (rsum n (fun a => x a * g a + e / sa * (g a * pa a))).
    { apply rsum_ext. intros a Ha. fold (pa a). field. assumption. }
    rewrite rsum_plus, rsum_scal_l. change (rsum n (fun a => g a * pa a)) with (bil n p g h).
    rewrite <- bil_sym. fold c. unfold dot. field. assumption.
  Qed.

  Lemma ccov_symmetric : symmetric n (conditional_cov n p h sh).
  Proof.
    intros a b Ha Hb. rewrite !ccov_eq by assumption. rewrite (Hp a b Ha Hb). field. assumption.
  Qed.
End Two.

Section Commute.
  Variables (n : nat) (p : mat) (h g : vec) (sh sg : R).
  Hypothesis Hp : symmetric n p.
  Let sa := innovation_var n p h sh.
  Let sb := innovation_var n p g sg.
  Let c := bil n p h g.
  Hypothesis Hsa : 0 < sa.
  Hypothesis Hsb : 0 < sb.
  Hypothesis Hd : 0 < sa * sb - c * c.

  Lemma comm_cov : meq n (conditional_cov n (conditional_cov n p h sh) g sg)
                         (conditional_cov n (conditional_cov n p g sg) h sh).
  Proof.
    assert (Va : innovation_var n (conditional_cov n p h sh) g sg <> 0).
    { rewrite ccov_var by (assumption || (fold sa; lra)). fold sa sb c.
      replace (sb - c * c / sa) with ((sa * sb - c * c) / sa) by (field; lra).
      apply Rgt_not_eq. apply Rdiv_lt_0_compat; lra. }
    assert (Vb : innovation_var n (conditional_cov n p g sg) h sh <> 0).
    { rewrite ccov_var by (assumption || (fold sb; lra)). fold sa sb. rewrite <- bil_sym by assumption. fold c.
      replace (sa - c * c / sb) with ((sa * sb - c * c) / sb) by (field; lra).
      apply Rgt_not_eq. apply Rdiv_lt_0_compat; lra. }
    intros a b Ha Hb.
    rewrite (ccov_eq n (conditional_cov n p h sh)) by
      (assumption || (apply ccov_symmetric; [assumption|fold sa; lra])).
    rewrite (ccov_eq n (conditional_cov n p g sg)) by
      (assumption || (apply ccov_symmetric; [assumption|fold sb; lra])).
    rewrite !ccov_var, !ccov_mat_vec, !ccov_eq by (assumption || (fold sa sb; lra)).
    rewrite <- (bil_sym n p h g Hp). fold sa sb c.
    field. repeat split; lra.
  Qed.

  Lemma comm_mean x oh og zh zg :
    veq n (conditional_mean n (conditional_mean n x p h sh oh zh) (conditional_cov n p h sh) g sg og zg)
          (conditional_mean n (conditional_mean n x p g sg og zg) (conditional_cov n p g sg) h sh oh zh).
  Proof.
    intros a Ha. unfold conditional_mean at 1 3, gain.
    rewrite !cmean_dot, !ccov_var, !ccov_mat_vec by (assumption || (fold sa sb; lra)).
    rewrite <- (bil_sym n p h g Hp). fold sa sb c. unfold conditional_mean, gain. fold sa sb.
    field. repeat split; lra.
  Qed.

  Lemma comm_ldens x oh og zh zg :
    ldens n x p h sh oh zh
    + ldens n (conditional_mean n x p h sh oh zh) (conditional_cov n p h sh) g sg og zg
    = ldens n x p g sg og zg
      + ldens n (conditional_mean n x p g sg og zg) (conditional_cov n p g sg) h sh oh zh.
  Proof.
    unfold ldens. cbv zeta.
    rewrite !cmean_dot, !ccov_var by (assumption || (fold sa sb; lra)).
    rewrite <- (bil_sym n p h g Hp). fold sa sb c.
    assert (0 < PI) by apply PI_RGT_0.
    set (t := ln (2 * PI * sa) + ln (2 * PI * (sb - c * c / sa))).
    assert (E : ln (2 * PI * sa) + ln (2 * PI * (sb - c * c / sa))
              = ln (2 * PI * sb) + ln (2 * PI * (sa - c * c / sb))).
    { assert (0 < sb - c * c / sa).
      { replace (sb - c * c / sa) with ((sa * sb - c * c) / sa) by (field; lra).
        apply Rdiv_lt_0_compat; lra. }
      assert (0 < sa - c * c / sb).
      { replace (sa - c * c / sb) with ((sa * sb - c * c) / sb) by (field; lra).
        apply Rdiv_lt_0_compat; lra. }
      rewrite <- !ln_mult by nra. f_equal. field. lra. }
    fold t in E.
    set (ea := zh - (dot n x h + oh)). set (eb := zg - (dot n x g + og)).
    replace (zg - (dot n x g + c / sa * ea + og)) with (eb - c / sa * ea) by (unfold eb; ring).
    replace (zh - (dot n x h + c / sb * eb + oh)) with (ea - c / sb * eb) by (unfold ea; ring).
    assert (F : ea * ea / sa + (eb - c / sa * ea) * (eb - c / sa * ea) / (sb - c * c / sa)
              = eb * eb / sb + (ea - c / sb * eb) * (ea - c / sb * eb) / (sa - c * c / sb)).
    { field. repeat split; lra. }
    unfold t in E. lra.
  Qed.
End Commute.
