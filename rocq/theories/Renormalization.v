(** How the filter behaves when latent factors are measured in other units and from
    another origin: x' = c x + d for each factor. *)
Require Import Reals Lra Lia Psatz Arith Bool String List.
From Verif Require Import PyBase ListFacts RSum Kalman SpecKalman KalmanFacts KalmanOrder KalmanSeq PredictFacts QRSigns.
Import ListNotations.
Open Scope R_scope.

Definition stretched (u : mat) (c : vec) : mat := fun a b => u a b * c b.
Definition moved (c d : vec) (x : vec) : vec := fun a => c a * x a + d a.

Lemma stretched_upper n u c : upper_triangular n u -> upper_triangular n (stretched u c).
Proof. intros T a b Ha Hb L. unfold stretched. rewrite T by assumption. ring. Qed.

Lemma stretched_nonsingular n u c : (forall a, (a < n)%nat -> c a <> 0) ->
  nonsingular n (stretched u c) <-> nonsingular n u.
Proof.
  intros Hc. split; intros N v Hv b Hb.
  - assert (E : (fun b => v b / c b) b = 0).
    { apply (N (fun b => v b / c b)); [|exact Hb]. intros a Ha. rewrite <- (Hv a Ha). apply rsum_ext. intros k Hk.
      unfold stretched. field. now apply Hc. }
    cbv beta in E. apply Rmult_integral in E as [E|E]; [exact E|]. exfalso. now apply (Rinv_neq_0_compat (c b) (Hc b Hb)).
  - assert (E : (fun b => v b * c b) b = 0).
    { apply (N (fun b => v b * c b)); [|exact Hb]. intros a Ha. rewrite <- (Hv a Ha). apply rsum_ext. intros k Hk.
      unfold stretched. ring. }
    cbv beta in E. apply Rmult_integral in E as [E|E]; [exact E|]. now apply Hc in E.
Qed.

Lemma stretched_cov n u c a b : cov n (stretched u c) a b = c a * c b * cov n u a b.
Proof. unfold cov. rewrite <- rsum_scal_l. apply rsum_ext. intros; unfold stretched. ring. Qed.

Section Affine.
  Variables (n : nat) (c d : vec).
  Hypothesis Hc : forall a, (a < n)%nat -> c a <> 0.
  Variables (x : vec) (p : mat) (h : vec) (sd off off' z : R).
  Let x' := moved c d x.
  Let p' : mat := fun a b => c a * c b * p a b.
  Let h' : vec := fun a => h a / c a.
  Hypothesis Hoff : off' = off - rsum n (fun a => h a * d a / c a).

  Lemma mat_vec_affine a : mat_vec n p' h' a = c a * mat_vec n p h a.
  Proof.
    unfold mat_vec. rewrite <- rsum_scal_l. apply rsum_ext. intros b Hb. unfold p', h'. field. now apply Hc.
  Qed.

  Lemma innovation_affine : innovation_var n p' h' sd = innovation_var n p h sd.
  Proof.
    unfold innovation_var, quad. f_equal. apply rsum_ext. intros a Ha. rewrite mat_vec_affine. unfold h'. field. now apply Hc.
  Qed.

  Lemma residual_affine : z - (dot n x' h' + off') = z - (dot n x h + off).
  Proof.
    rewrite Hoff. replace (dot n x' h') with (dot n x h + rsum n (fun a => h a * d a / c a)); [ring|].
    unfold dot. rewrite <- rsum_plus. apply rsum_ext. intros a Ha. unfold x', h', moved. field. now apply Hc.
  Qed.

  Lemma conditional_mean_affine a :
    conditional_mean n x' p' h' sd off' z a = moved c d (conditional_mean n x p h sd off z) a.
  Proof.
    unfold conditional_mean, gain. rewrite residual_affine, innovation_affine, mat_vec_affine.
    unfold x', moved, Rdiv. ring.
  Qed.

  Lemma conditional_cov_affine a b :
    conditional_cov n p' h' sd a b = c a * c b * conditional_cov n p h sd a b.
  Proof.
    unfold conditional_cov, gain. rewrite innovation_affine, mat_vec_affine.
    replace (rsum n (fun k => h' k * p' k b)) with (c b * rsum n (fun k => h k * p k b)).
    - unfold p', Rdiv. ring.
    - rewrite <- rsum_scal_l. apply rsum_ext. intros k Hk. unfold h', p'. field. now apply Hc.
  Qed.

  Lemma ldens_affine : ldens n x' p' h' sd off' z = ldens n x p h sd off z.
  Proof. unfold ldens. rewrite residual_affine, innovation_affine. reflexivity. Qed.
End Affine.

Section AffineExt.
  Lemma dot_ext n x y h k : veq n x y -> veq n h k -> dot n x h = dot n y k.
  Proof. intros A B. apply rsum_ext. intros a Ha. now rewrite (A a Ha), (B a Ha). Qed.

  Lemma loadings_mat_vec n p h k a : veq n h k -> mat_vec n p h a = mat_vec n p k a.
  Proof. intros A. apply rsum_ext. intros b Hb. now rewrite (A b Hb). Qed.

  Lemma loadings_innovation n p h k sd : veq n h k -> innovation_var n p h sd = innovation_var n p k sd.
  Proof.
    intros A. unfold innovation_var, quad. f_equal. apply rsum_ext. intros a Ha.
    now rewrite (A a Ha), (loadings_mat_vec n p h k a A).
  Qed.

  Lemma loadings_mean n x p h k sd off z a : veq n h k ->
    conditional_mean n x p h sd off z a = conditional_mean n x p k sd off z a.
  Proof.
    intros A. unfold conditional_mean, gain. rewrite (loadings_innovation n p h k sd A), (loadings_mat_vec n p h k a A).
    now rewrite (dot_ext n x x h k (fun _ _ => eq_refl) A).
  Qed.

  Lemma loadings_cov n p h k sd a b : veq n h k -> conditional_cov n p h sd a b = conditional_cov n p k sd a b.
  Proof.
    intros A. unfold conditional_cov, gain. rewrite (loadings_innovation n p h k sd A), (loadings_mat_vec n p h k a A).
    do 2 f_equal. apply rsum_ext. intros c Hc. now rewrite (A c Hc).
  Qed.

  Lemma loadings_ldens n x p h k sd off z : veq n h k -> ldens n x p h sd off z = ldens n x p k sd off z.
  Proof.
    intros A. unfold ldens. now rewrite (loadings_innovation n p h k sd A), (dot_ext n x x h k (fun _ _ => eq_refl) A).
  Qed.
End AffineExt.

(** The second belief about individual [i] is the first one in other units. *)
Definition renormalized_factors (nm n i : nat) (c d : vec) (st st' : nat -> nat -> vec) (ch ch' : nat -> nat -> mat) : Prop :=
  forall m, (m < nm)%nat ->
    veq n (moved c d (st i m)) (st' i m) /\ nonsingular n (ch i m) /\ up_to_signs n (stretched (ch i m) c) (ch' i m).

Lemma renormalized_cov nm n i c d st st' ch ch' m : renormalized_factors nm n i c d st st' ch ch' -> (m < nm)%nat ->
  meq n (fun a b => c a * c b * cov n (ch i m) a b) (cov n (ch' i m)).
Proof.
  intros Hs Hm a b Ha Hb. destruct (Hs m Hm) as (_ & _ & B). rewrite <- (signs_cov _ _ _ B a b Ha Hb). symmetry. apply stretched_cov.
Qed.

Section Update.
  Variable qr : qr_function.
  Hypothesis Hqr : correct_qr qr.
  Variable nan : R.
  Variables (nm n nc i : nat) (c d : vec).
  Hypothesis Hc : forall a, (a < n)%nat -> c a <> 0.
  Variables (st st' : nat -> nat -> vec) (ch ch' : nat -> nat -> mat) (h h' cp cp' : vec) (sd : R)
    (meas : nat -> option R) (controls : nat -> nat -> option R) (lw lw' : nat -> vec).
  Hypothesis Hsd : sd <> 0.
  Hypothesis Hnm : (1 <= nm)%nat.
  Hypothesis Hs : renormalized_factors nm n i c d st st' ch ch'.
  Hypothesis Hw : forall m, (m < nm)%nat -> lw i m = lw' i m.
  Hypothesis Hh : forall a, (a < n)%nat -> h' a = h a / c a.
  Let off := dot nc (fun k => to_number nan (controls i k)) cp.
  Let off' := dot nc (fun k => to_number nan (controls i k)) cp'.
  Hypothesis Hoff : meas i <> None -> off' = off - rsum n (fun a => h a * d a / c a).
  Let up := kalman_update qr nan nm n nc st ch h cp sd meas controls lw.
  Let up' := kalman_update qr nan nm n nc st' ch' h' cp' sd meas controls lw'.

  Lemma update_regular m : (m < nm)%nat -> nonsingular n (up_chols up i m).
  Proof.
    intros Hm. refine (update_nonsingular qr Hqr nan nm n nc i st st ch ch h cp sd meas controls lw Hsd _ m Hm).
    intros k Hk. split; [now intros ? ?|]. split; [now apply Hs|apply signs_refl].
  Qed.

  Lemma update_renormalized : renormalized_factors nm n i c d (up_states up) (up_states up') (up_chols up) (up_chols up').
  Proof.
    intros m Hm. destruct (Hs m Hm) as (A & N & B). pose proof (renormalized_cov _ _ _ _ _ _ _ _ _ m Hs Hm) as C.
    split; [|split; [now apply update_regular|]].
    - destruct (meas i) as [z|] eqn:Ez.
      + specialize (Hoff ltac:(discriminate)). intros a Ha. unfold up, up'.
        rewrite (up_states_ok qr Hqr nan nm n nc st' ch' h' cp' sd meas controls lw' i z Ez m a)
          by (try exact Ha; apply Rgt_not_eq, innovation_var_pos, Hsd).
        fold off'. rewrite (loadings_mean n _ _ h' (fun a => h a / c a) _ _ _ a Hh).
        rewrite <- (conditional_mean_ext n _ _ _ _ (fun a => h a / c a) sd off' z A C a Ha).
        rewrite (conditional_mean_affine n c d Hc (st i m) (cov n (ch i m)) h sd off off' z Hoff a).
        unfold moved. rewrite (up_states_ok qr Hqr nan nm n nc st ch h cp sd meas controls lw i z Ez m a)
          by (try exact Ha; apply Rgt_not_eq, innovation_var_pos, Hsd). reflexivity.
      + destruct (update_missing_individual qr nan nm n nc st ch h cp sd meas controls lw i Ez) as (E & _).
        destruct (update_missing_individual qr nan nm n nc st' ch' h' cp' sd meas controls lw' i Ez) as (E' & _).
        unfold up, up'. now rewrite E, E'.
    - destruct (meas i) as [z|] eqn:Ez.
      + apply triangular_unique.
        * apply stretched_upper, (up_upper_ok qr Hqr nan nm n nc st ch h cp sd meas controls lw i z Ez m).
        * apply (up_upper_ok qr Hqr nan nm n nc st' ch' h' cp' sd meas controls lw' i z Ez m).
        * apply stretched_nonsingular; [exact Hc|now apply update_regular].
        * intros a b Ha Hb. rewrite stretched_cov. unfold up, up'.
          rewrite (up_cov_ok qr Hqr nan nm n nc st ch h cp sd meas controls lw i z Ez m)
            by (try assumption; apply Rgt_not_eq, innovation_var_pos, Hsd).
          rewrite (up_cov_ok qr Hqr nan nm n nc st' ch' h' cp' sd meas controls lw' i z Ez m)
            by (try assumption; apply Rgt_not_eq, innovation_var_pos, Hsd).
          rewrite (loadings_cov n _ h' (fun a => h a / c a) sd a b Hh).
          rewrite <- (conditional_cov_ext n _ _ (fun a => h a / c a) sd C a b Ha Hb).
          symmetry. now apply conditional_cov_affine.
      + destruct (update_missing_individual qr nan nm n nc st ch h cp sd meas controls lw i Ez) as (_ & E & _).
        destruct (update_missing_individual qr nan nm n nc st' ch' h' cp' sd meas controls lw' i Ez) as (_ & E' & _).
        unfold up, up'. now rewrite E, E'.
  Qed.

  Lemma ldens_renormalized m z : (m < nm)%nat -> meas i = Some z ->
    ldens n (st i m) (cov n (ch i m)) h sd off z = ldens n (st' i m) (cov n (ch' i m)) h' sd off' z.
  Proof.
    intros Hm Ez. destruct (Hs m Hm) as (A & N & B). pose proof (renormalized_cov _ _ _ _ _ _ _ _ _ m Hs Hm) as C.
    specialize (Hoff ltac:(congruence)).
    rewrite (loadings_ldens n _ _ h' (fun a => h a / c a) sd off' z Hh).
    rewrite <- (ldens_ext n _ _ _ _ (fun a => h a / c a) sd off' z A C).
    symmetry. now apply ldens_affine.
  Qed.

  Lemma loglikes_renormalized : up_loglikes up i = up_loglikes up' i.
  Proof.
    pose proof ldens_renormalized as D. destruct (meas i) as [z|] eqn:Ez.
    - unfold up, up'.
      rewrite (up_loglikes_ok qr Hqr nan nm n nc st ch h cp sd meas controls lw i z Ez).
      rewrite (up_loglikes_ok qr Hqr nan nm n nc st' ch' h' cp' sd meas controls lw' i z Ez).
      destruct (2 <=? nm)%nat.
      + apply logsumexp_ext. intros m Hm. rewrite (Hw m Hm). f_equal. now apply D.
      + now apply D.
    - destruct (update_missing_individual qr nan nm n nc st ch h cp sd meas controls lw i Ez) as (_ & _ & _ & E & _).
      destruct (update_missing_individual qr nan nm n nc st' ch' h' cp' sd meas controls lw' i Ez) as (_ & _ & _ & E' & _).
      unfold up, up'. now rewrite E, E'.
  Qed.

  Lemma rest_renormalized m : (m < nm)%nat ->
    up_logw up i m = up_logw up' i m /\ up_residuals up i m = up_residuals up' i m /\
    up_residual_sds up i m = up_residual_sds up' i m.
  Proof.
    intros Hm. pose proof loglikes_renormalized as L. pose proof (fun z => ldens_renormalized m z Hm) as D0. unfold up, up' in *.
    destruct (Hs m Hm) as (A & _ & B). pose proof (renormalized_cov _ _ _ _ _ _ _ _ _ m Hs Hm) as C.
    destruct (meas i) as [z|] eqn:Ez.
    - pose proof (D0 z eq_refl) as D. specialize (Hoff ltac:(discriminate)).
      rewrite (up_logw_ok qr Hqr nan nm n nc st ch h cp sd meas controls lw i z Ez).
      rewrite (up_logw_ok qr Hqr nan nm n nc st' ch' h' cp' sd meas controls lw' i z Ez).
      rewrite (up_residuals_ok qr nan nm n nc st ch h cp sd meas controls lw i z Ez).
      rewrite (up_residuals_ok qr nan nm n nc st' ch' h' cp' sd meas controls lw' i z Ez).
      rewrite (up_residual_sds_ok qr Hqr nan nm n nc st ch h cp sd meas controls lw i z Ez).
      rewrite (up_residual_sds_ok qr Hqr nan nm n nc st' ch' h' cp' sd meas controls lw' i z Ez).
      rewrite L, (Hw m Hm). fold off off'. rewrite D. split; [reflexivity|].
      rewrite <- (dot_ext n _ _ (fun a => h a / c a) h' A) by (intros a Ha; symmetry; now apply Hh).
      rewrite (residual_affine n c d Hc (st i m) h off off' z Hoff). split; [reflexivity|]. do 2 f_equal.
      rewrite (loadings_innovation n _ h' (fun a => h a / c a) sd Hh).
      rewrite <- (innovation_var_ext n _ _ (fun a => h a / c a) sd C).
      symmetry. now apply innovation_affine.
    - destruct (update_missing_individual qr nan nm n nc st ch h cp sd meas controls lw i Ez) as (_ & _ & E & _ & R1 & R2).
      destruct (update_missing_individual qr nan nm n nc st' ch' h' cp' sd meas controls lw' i Ez) as (_ & _ & E' & _ & R1' & R2').
      rewrite E, E', R1, R1', R2, R2'. auto.
  Qed.
End Update.

Section Prediction.
  Variable qr : qr_function.
  Hypothesis Hqr : correct_qr qr.
  Variables (n_obs nm n no i : nat) (kappa : R) (c0 d0 c1 d1 : vec).
  Hypothesis Hc0 : forall a, (a < n)%nat -> c0 a <> 0.
  Hypothesis Hc1 : forall a, (a < n)%nat -> c1 a <> 0.
  Hypothesis Hkappa : 0 <= kappa.
  Hypothesis Hpos : 0 < INR n + kappa.
  Hypothesis Hshape : no = O \/ nm = 1%nat.
  Variables (st st' : nat -> nat -> vec) (ch ch' : nat -> nat -> mat).
  Hypothesis Hs : renormalized_factors nm n i c0 d0 st st' ch ch'.
  Variables (func func' : vec -> vec) (sds sds' : vec) (asc aco asc' aco' : nat -> vec) (obs : nat -> vec).
  Hypothesis Hfunc : local_transition n (n + no) func.
  Hypothesis Hfunc' : local_transition n (n + no) func'.
  Hypothesis Hreg : forall f, (f < n)%nat ->
    sds f <> 0 \/ (asc O f <> 0 /\ asc 1%nat f <> 0 /\ forall v, func v f = v f).

  (** The transition is the same on the new scale. *)
  Hypothesis Himage : forall v f, (f < n)%nat ->
    anchored_transition func' asc' aco' (all_factors n (moved c0 d0 v) (obs i)) f
    = moved c1 d1 (anchored_transition func asc aco (all_factors n v (obs i))) f.
  Hypothesis Hsds : forall f, (f < n)%nat -> sds' f = sds f * c1 f.

  Let s := sigma_scaling_factor n kappa.
  Let w := sigma_weights n kappa.
  Let stT : nat -> nat -> vec := fun j m => moved c0 d0 (st j m).
  Let chT : nat -> nat -> mat := fun j m => stretched (ch j m) c0.

  Lemma point_moved m k f : sigma_point n (stT i m) (chT i m) s k f = moved c0 d0 (sigma_point n (st i m) (ch i m) s k) f.
  Proof.
    unfold sigma_point, moved, stT, chT, stretched, moved. destruct (k =? 0)%nat; [reflexivity|].
    destruct (k <=? n)%nat; ring.
  Qed.

  Lemma image_moved m k f : (f < n)%nat ->
    image n stT chT s func' asc' aco' obs i m k f = moved c1 d1 (image n st ch s func asc aco obs i m k) f.
  Proof.
    intros Hf. unfold image. refine (eq_trans _ (Himage _ f Hf)). unfold anchored_transition. do 2 f_equal.
    apply Hfunc'; [|exact Hf]. intros g Hg. unfold all_factors. destruct (Nat.ltb_spec g n) as [L|G]; [|reflexivity].
    now rewrite point_moved.
  Qed.

  Lemma signed_T : signed nm n i stT st' chT ch'.
  Proof.
    intros m Hm. destruct (Hs m Hm) as (A & N & B). split; [exact A|]. split; [|exact B].
    apply stretched_nonsingular; [exact Hc0|exact N].
  Qed.

  Lemma mean_T m f : (m < nm)%nat -> (f < n)%nat ->
    weighted_mean (2 * n + 1) w (fun k => image n stT chT s func' asc' aco' obs i m k f)
    = weighted_mean (2 * n + 1) w (fun k => image n st' ch' s func' asc' aco' obs i m k f).
  Proof. exact (mean_signs nm n no i kappa Hshape stT st' chT ch' signed_T func' asc' aco' obs Hfunc' m f). Qed.

  Lemma scatter_T m f g : (m < nm)%nat -> (f < n)%nat -> (g < n)%nat ->
    weighted_scatter (2 * n + 1) w (fun k => image n stT chT s func' asc' aco' obs i m k f)
      (fun k => image n stT chT s func' asc' aco' obs i m k g)
    = weighted_scatter (2 * n + 1) w (fun k => image n st' ch' s func' asc' aco' obs i m k f)
        (fun k => image n st' ch' s func' asc' aco' obs i m k g).
  Proof. exact (scatter_signs nm n no i kappa Hshape stT st' chT ch' signed_T func' asc' aco' obs Hfunc' m f g). Qed.

  Lemma mean_moved m f : (m < nm)%nat -> (f < n)%nat ->
    weighted_mean (2 * n + 1) w (fun k => image n st' ch' s func' asc' aco' obs i m k f)
    = moved c1 d1 (fun f => weighted_mean (2 * n + 1) w (fun k => image n st ch s func asc aco obs i m k f)) f.
  Proof.
    intros Hm Hf. rewrite <- (mean_T m f Hm Hf). unfold weighted_mean, moved.
    rewrite (rsum_ext _ _ (fun k => c1 f * (w k * image n st ch s func asc aco obs i m k f) + d1 f * w k)).
    - rewrite rsum_plus, !rsum_scal_l. unfold w at 2. rewrite (weights_sum n kappa Hpos). ring.
    - intros k Hk. rewrite image_moved by exact Hf. unfold moved. ring.
  Qed.

  Lemma scatter_moved m f g : (m < nm)%nat -> (f < n)%nat -> (g < n)%nat ->
    weighted_scatter (2 * n + 1) w (fun k => image n st' ch' s func' asc' aco' obs i m k f)
      (fun k => image n st' ch' s func' asc' aco' obs i m k g)
    = c1 f * c1 g * weighted_scatter (2 * n + 1) w (fun k => image n st ch s func asc aco obs i m k f)
                      (fun k => image n st ch s func asc aco obs i m k g).
  Proof.
    intros Hm Hf Hg. rewrite <- (scatter_T m f g Hm Hf Hg).
    unfold weighted_scatter. rewrite <- rsum_scal_l. apply rsum_ext. intros k Hk.
    rewrite (mean_T m f Hm Hf), (mean_T m g Hm Hg).
    rewrite (mean_moved m f Hm Hf), (mean_moved m g Hm Hg), !image_moved by assumption.
    unfold moved. ring.
  Qed.

  Lemma predict_renormalized r r' :
    kalman_predict qr n_obs nm n no st ch s w func sds asc aco obs = Ok r ->
    kalman_predict qr n_obs nm n no st' ch' s w func' sds' asc' aco' obs = Ok r' ->
    renormalized_factors nm n i c1 d1 (fst r) (fst r') (snd r) (snd r').
  Proof.
    intros E E' m Hm.
    destruct (predict_ok qr Hqr n_obs nm n no st ch s w func sds asc aco obs Hfunc Hshape) as (ps & pc & Ek & P).
    destruct (predict_ok qr Hqr n_obs nm n no st' ch' s w func' sds' asc' aco' obs Hfunc' Hshape) as (ps' & pc' & Ek' & P').
    rewrite E in Ek. rewrite E' in Ek'. injection Ek as ->. injection Ek' as ->. cbn [fst snd].
    destruct (P i m Hm) as (M & U & C). destruct (P' i m Hm) as (M' & U' & C').
    assert (W : forall k, 0 <= w k) by (intros k; now apply weights_nonneg).
    specialize (C (fun k _ => W k)). specialize (C' (fun k _ => W k)).
    assert (Hrefl : signed nm n i st st ch ch).
    { intros k Hk. split; [now intros ? ?|]. split; [now apply Hs|apply signs_refl]. }
    pose proof (predicted_nonsingular nm n no i kappa Hkappa Hpos Hshape st st ch ch Hrefl func sds asc aco obs Hreg m (pc i m) Hm C) as N.
    split; [|split; [exact N|]].
    - intros f Hf. unfold moved. rewrite (M f Hf), (M' f Hf). symmetry. apply (mean_moved m f Hm Hf).
    - apply triangular_unique; [apply stretched_upper, U|exact U'|apply stretched_nonsingular; [exact Hc1|exact N]|].
      intros f g Hf Hg. rewrite stretched_cov, (C f g Hf Hg), (C' f g Hf Hg), (scatter_moved m f g Hm Hf Hg).
      destruct (Nat.eq_dec f g) as [->|]; [rewrite (Hsds g Hg)|]; ring.
  Qed.
End Prediction.
