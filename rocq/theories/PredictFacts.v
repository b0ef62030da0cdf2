(** Lemmas about sigma points and the predict step. *)
Require Import Reals Lra Lia Psatz Arith Bool List.
From Verif Require Import PyBase RSum Kalman SpecKalman KalmanFacts.
Import ListNotations.
Open Scope R_scope.

Lemma flat_div d i j : (j < d)%nat -> (flat d i j / d)%nat = i.
Proof. intros H. unfold flat. rewrite Nat.add_comm, Nat.div_add by lia. now rewrite Nat.div_small. Qed.
Lemma flat_mod d i j : (j < d)%nat -> (flat d i j mod d)%nat = j.
Proof. intros H. unfold flat. rewrite Nat.add_comm, Nat.mod_add by lia. now apply Nat.mod_small. Qed.

Lemma rsum_sigma n f :
  rsum (2 * n + 1) f = f O + rsum n (fun j => f (1 + j)%nat) + rsum n (fun j => f (n + 1 + j)%nat).
Proof.
  replace (2 * n + 1)%nat with (S (n + n)) by lia. rewrite rsum_S_l, rsum_app.
  rewrite Rplus_assoc. f_equal. f_equal; apply rsum_ext; intros j Hj; f_equal; lia.
Qed.

Section Sigma.
  Variables (n_obs nm n no : nat).
  Variables (states : nat -> nat -> vec) (chols : nat -> nat -> mat) (scale : R) (obs : nat -> vec).

  Definition point (i m s f : nat) : R :=
    if (f <? n)%nat then
      states i m f
      + (if (1 <=? s)%nat && (s <? n + 1)%nat then chols i m (s - 1)%nat f * scale else 0)
      - (if (n + 1 <=? s)%nat then chols i m (s - (n + 1))%nat f * scale else 0)
    else obs (flat nm i m) (f - n)%nat.

  Lemma sigma_points_cases :
    calculate_sigma_points n_obs nm n no states chols scale obs = Err ShapeError \/
    exists pts, calculate_sigma_points n_obs nm n no states chols scale obs = Ok pts /\
      (n_obs = O \/ no = O \/ nm = 1%nat) /\
      forall i m s f, (m < nm)%nat -> (s < 2 * n + 1)%nat -> pts i m s f = point i m s f.
  Proof.
    unfold calculate_sigma_points.
    destruct (n_obs * (2 * n + 1) * no =? n_obs * nm * (2 * n + 1) * no)%nat eqn:E; [right|left; reflexivity].
    eexists. split; [reflexivity|]. split.
    - apply Nat.eqb_eq in E. destruct (Nat.eq_dec n_obs 0) as [?|H1]; [now left|].
      destruct (Nat.eq_dec no 0) as [?|H2]; [now right; left|]. right; right. nia.
    - intros i m s f Hm Hs. cbv beta. unfold point. destruct (f <? n)%nat.
      + rewrite (flat_div (2 * n + 1) m s Hs). destruct (n + 1 <=? s)%nat; ring.
      + rewrite (flat_div (2 * n + 1) _ s Hs). reflexivity.
  Qed.

  Lemma sigma_points_err : (1 <= n_obs)%nat -> (1 <= no)%nat -> nm <> 1%nat ->
    calculate_sigma_points n_obs nm n no states chols scale obs = Err ShapeError.
  Proof.
    intros A B C. destruct sigma_points_cases as [E|(p & E & D & _)]; [assumption|].
    destruct D as [D|[D|D]]; lia.
  Qed.

  Lemma sigma_points_ok : (n_obs = O \/ no = O \/ nm = 1%nat) ->
    exists pts, calculate_sigma_points n_obs nm n no states chols scale obs = Ok pts /\
      forall i m s f, (m < nm)%nat -> (s < 2 * n + 1)%nat -> pts i m s f = point i m s f.
  Proof.
    intros H. destruct sigma_points_cases as [E|(p & E & D & F)]; [exfalso|exists p; tauto].
    unfold calculate_sigma_points in E.
    destruct (n_obs * (2 * n + 1) * no =? n_obs * nm * (2 * n + 1) * no)%nat eqn:Q; [discriminate|].
    apply Nat.eqb_neq in Q. apply Q. destruct H as [->|[->| ->]]; nia.
  Qed.

  Lemma point_0 i m f : (f < n)%nat -> point i m O f = states i m f.
  Proof.
    intros Hf. unfold point. rewrite (proj2 (Nat.ltb_lt f n) Hf).
    replace (n + 1 <=? 0)%nat with false by (symmetry; apply Nat.leb_gt; lia). simpl. ring.
  Qed.
  Lemma point_plus i m j f : (f < n)%nat -> (j < n)%nat ->
    point i m (1 + j) f = states i m f + chols i m j f * scale.
  Proof.
    intros Hf Hj. unfold point. rewrite (proj2 (Nat.ltb_lt f n) Hf).
    replace (n + 1 <=? 1 + j)%nat with false by (symmetry; apply Nat.leb_gt; lia).
    replace (1 <=? 1 + j)%nat with true by (symmetry; apply Nat.leb_le; lia).
    replace (1 + j <? n + 1)%nat with true by (symmetry; apply Nat.ltb_lt; lia).
    replace (1 + j - 1)%nat with j by lia. simpl. ring.
  Qed.
  Lemma point_minus i m j f : (f < n)%nat -> (j < n)%nat ->
    point i m (n + 1 + j) f = states i m f - chols i m j f * scale.
  Proof.
    intros Hf Hj. unfold point. rewrite (proj2 (Nat.ltb_lt f n) Hf).
    replace (n + 1 <=? n + 1 + j)%nat with true by (symmetry; apply Nat.leb_le; lia).
    replace (n + 1 + j <? n + 1)%nat with false by (symmetry; apply Nat.ltb_ge; lia).
    rewrite andb_false_r. replace (n + 1 + j - (n + 1))%nat with j by lia. ring.
  Qed.
  Lemma point_observed i m s o : point i m s (n + o) = obs (flat nm i m) o.
  Proof.
    unfold point. replace (n + o <? n)%nat with false by (symmetry; apply Nat.ltb_ge; lia).
    f_equal. lia.
  Qed.
End Sigma.

Lemma weights_sum n kappa : 0 < INR n + kappa ->
  rsum (2 * n + 1) (sigma_weights n kappa) = 1.
Proof.
  intros H. rewrite rsum_sigma.
  rewrite (rsum_ext n (fun j => sigma_weights n kappa (1 + j)%nat) (fun _ => / 2 / (INR n + kappa))).
  2:{ intros j Hj. reflexivity. }
  rewrite (rsum_ext n (fun j => sigma_weights n kappa (n + 1 + j)%nat) (fun _ => / 2 / (INR n + kappa))).
  2:{ intros j Hj. replace (n + 1 + j)%nat with (S (n + j)) by lia. reflexivity. }
  rewrite !rsum_const. simpl. field. lra.
Qed.

Lemma weight_S n kappa s : (1 <= s)%nat -> sigma_weights n kappa s = / 2 / (INR n + kappa).
Proof. intros H. destruct s; [lia|reflexivity]. Qed.

(** Weighted mean of values that are symmetric around [x]. *)
Lemma symmetric_mean n kappa (f : nat -> R) x (d : nat -> R) : 0 < INR n + kappa ->
  f O = x -> (forall j, (j < n)%nat -> f (1 + j)%nat = x + d j) ->
  (forall j, (j < n)%nat -> f (n + 1 + j)%nat = x - d j) ->
  rsum (2 * n + 1) (fun s => sigma_weights n kappa s * f s) = x.
Proof.
  intros H F0 Fp Fm. assert (W := weights_sum n kappa H). rewrite rsum_sigma in W |- *.
  rewrite F0.
  rewrite (rsum_ext n _ (fun j => sigma_weights n kappa (1 + j)%nat * x + / 2 / (INR n + kappa) * d j)).
  2:{ intros j Hj. rewrite (Fp j Hj), (weight_S n kappa (1 + j)) by lia. ring. }
  rewrite (rsum_ext n (fun j => sigma_weights n kappa (n + 1 + j)%nat * f (n + 1 + j)%nat)
             (fun j => sigma_weights n kappa (n + 1 + j)%nat * x - / 2 / (INR n + kappa) * d j)).
  2:{ intros j Hj. rewrite (Fm j Hj), (weight_S n kappa (n + 1 + j)) by lia. ring. }
  rewrite rsum_plus, rsum_minus, !rsum_scal_r.
  set (a := rsum n (fun j => sigma_weights n kappa (1 + j)%nat)) in *.
  set (b := rsum n (fun j => sigma_weights n kappa (n + 1 + j)%nat)) in *.
  rewrite <- (Rmult_1_l x) at 4. rewrite <- W. ring.
Qed.

(** Weighted cross product of deviations that are symmetric around 0. *)
Lemma symmetric_scatter n kappa (f g : nat -> R) (d e : nat -> R) : 0 < INR n + kappa ->
  f O = 0 -> (forall j, (j < n)%nat -> f (1 + j)%nat = d j * sigma_scaling_factor n kappa) ->
  (forall j, (j < n)%nat -> f (n + 1 + j)%nat = - (d j * sigma_scaling_factor n kappa)) ->
  (forall j, (j < n)%nat -> g (1 + j)%nat = e j * sigma_scaling_factor n kappa) ->
  (forall j, (j < n)%nat -> g (n + 1 + j)%nat = - (e j * sigma_scaling_factor n kappa)) ->
  rsum (2 * n + 1) (fun s => sigma_weights n kappa s * (f s * g s)) = rsum n (fun j => d j * e j).
Proof.
  intros H F0 Fp Fm Gp Gm. rewrite rsum_sigma. rewrite F0.
  assert (Q : sigma_scaling_factor n kappa * sigma_scaling_factor n kappa = INR n + kappa).
  { unfold sigma_scaling_factor. rewrite sqrt_sqrt by lra. ring. }
  rewrite (rsum_ext n _ (fun j => / 2 * (d j * e j))).
  2:{ intros j Hj. rewrite (Fp j Hj), (Gp j Hj), (weight_S n kappa (1 + j)) by lia.
      transitivity (/ 2 * (d j * e j) *
         ((sigma_scaling_factor n kappa * sigma_scaling_factor n kappa) / (INR n + kappa)));
        [field; lra|]. rewrite Q. field. lra. }
  rewrite (rsum_ext n (fun j => sigma_weights n kappa (n + 1 + j)%nat
                                * (f (n + 1 + j)%nat * g (n + 1 + j)%nat))
             (fun j => / 2 * (d j * e j))).
  2:{ intros j Hj. rewrite (Fm j Hj), (Gm j Hj), (weight_S n kappa (n + 1 + j)) by lia.
      transitivity (/ 2 * (d j * e j) *
         ((sigma_scaling_factor n kappa * sigma_scaling_factor n kappa) / (INR n + kappa)));
        [field; lra|]. rewrite Q. field. lra. }
  rewrite !rsum_scal_l. field.
Qed.

Lemma weights_nonneg n kappa s : 0 <= kappa -> 0 < INR n + kappa -> 0 <= sigma_weights n kappa s.
Proof.
  intros K H. assert (0 < / (INR n + kappa)) by now apply Rinv_0_lt_compat.
  destruct s; unfold sigma_weights, Rdiv; apply Rmult_le_pos; lra.
Qed.

Section PredictStep.
  Variable qr : qr_function.
  Hypothesis Hqr : correct_qr qr.
  Variables (n_obs nm n no : nat).
  Variables (states : nat -> nat -> vec) (chols : nat -> nat -> mat) (scale : R) (weights : vec)
            (func : vec -> vec) (sds : vec) (asc aco : nat -> vec) (obs : nat -> vec).

  Lemma transform_ok pts i m s f : (m < nm)%nat -> (s < 2 * n + 1)%nat ->
    transform_sigma_points nm (2 * n + 1) pts func asc aco i m s f
    = (func (fun g => pts i m s g * asc O g + aco O g) f - aco 1%nat f) / asc 1%nat f.
  Proof.
    intros Hm Hs. unfold transform_sigma_points.
    rewrite (flat_div (2 * n + 1) _ s Hs), (flat_mod (2 * n + 1) _ s Hs), flat_div, flat_mod by assumption.
    reflexivity.
  Qed.

  Lemma predict_gram (devs : nat -> vec) a b :
    (forall s, (s < 2 * n + 1)%nat -> 0 <= weights s) -> (a < n)%nat -> (b < n)%nat ->
    cov n (qr (2 * n + 1 + n)%nat n (predict_matrix n weights devs sds)) a b
    = rsum (2 * n + 1) (fun s => weights s * (devs s a * devs s b))
      + (if Nat.eq_dec a b then sds a * sds a else 0).
  Proof.
    intros W Ha Hb. unfold cov.
    rewrite (qr_gram (2 * n + 1 + n) n _ _ (Hqr (2 * n + 1 + n)%nat n _ ltac:(lia)) a b Ha Hb).
    rewrite rsum_app. f_equal.
    - apply rsum_ext. intros s Hs. unfold predict_matrix. rewrite (proj2 (Nat.ltb_lt _ _) Hs).
      rewrite <- (sqrt_sqrt (weights s)) at 3 by (apply W; assumption). ring.
    - assert (E : forall c d, (c < n)%nat ->
        predict_matrix n weights devs sds (2 * n + 1 + c)%nat d = if (c =? d)%nat then sds d else 0).
      { intros c d Hc. unfold predict_matrix.
        replace (2 * n + 1 + c <? 2 * n + 1)%nat with false by (symmetry; apply Nat.ltb_ge; lia).
        replace (2 * n + 1 + c - (2 * n + 1))%nat with c by lia. reflexivity. }
      rewrite (rsum_single n a).
      + rewrite !E, Nat.eqb_refl by assumption. destruct (Nat.eq_dec a b) as [->|Hne].
        * rewrite Nat.eqb_refl. reflexivity.
        * rewrite (proj2 (Nat.eqb_neq a b) Hne). ring.
      + assumption.
      + intros c Hc Hne. rewrite !E by assumption. rewrite (proj2 (Nat.eqb_neq c a) Hne). ring.
  Qed.

  Lemma predict_upper (devs : nat -> vec) :
    upper_triangular n (qr (2 * n + 1 + n)%nat n (predict_matrix n weights devs sds)).
  Proof. apply (Hqr (2 * n + 1 + n)%nat n _ ltac:(lia)). Qed.

  Definition image (i m s f : nat) : R :=
    anchored_transition func asc aco (all_factors n (sigma_point n (states i m) (chols i m) scale s) (obs i)) f.

  Lemma point_row i m s f : (m < nm)%nat -> (s < 2 * n + 1)%nat -> (no = O \/ nm = 1%nat) ->
    (f < n + no)%nat ->
    point nm n states chols scale obs i m s f
    = all_factors n (sigma_point n (states i m) (chols i m) scale s) (obs i) f.
  Proof.
    intros Hm Hs H Hf. unfold point, all_factors, sigma_point. destruct (f <? n)%nat eqn:E.
    - destruct s as [|s].
      + replace (n + 1 <=? 0)%nat with false by (symmetry; apply Nat.leb_gt; lia). simpl. ring.
      + cbn [Nat.eqb]. replace (1 <=? S s)%nat with true by (symmetry; apply Nat.leb_le; lia).
        rewrite andb_true_l. destruct (S s <=? n)%nat eqn:L.
        * apply Nat.leb_le in L. rewrite (proj2 (Nat.ltb_lt (S s) (n + 1))) by lia.
          rewrite (proj2 (Nat.leb_gt (n + 1) (S s))) by lia. ring.
        * apply Nat.leb_gt in L. rewrite (proj2 (Nat.ltb_ge (S s) (n + 1))) by lia.
          rewrite (proj2 (Nat.leb_le (n + 1) (S s))) by lia. ring.
    - apply Nat.ltb_ge in E. destruct H as [H|H]; [lia|]. f_equal. unfold flat. lia.
  Qed.

  Hypothesis Hfunc : local_transition n (n + no) func.
  Hypothesis Hshape : no = O \/ nm = 1%nat.

  Lemma predict_ok : exists ps pc,
    kalman_predict qr n_obs nm n no states chols scale weights func sds asc aco obs = Ok (ps, pc) /\
    forall i m, (m < nm)%nat ->
      (forall f, (f < n)%nat ->
         ps i m f = weighted_mean (2 * n + 1) weights (fun s => image i m s f)) /\
      upper_triangular n (pc i m) /\
      ((forall s, (s < 2 * n + 1)%nat -> 0 <= weights s) ->
       forall f g, (f < n)%nat -> (g < n)%nat ->
         cov n (pc i m) f g
         = weighted_scatter (2 * n + 1) weights (fun s => image i m s f) (fun s => image i m s g)
           + if Nat.eq_dec f g then sds f * sds f else 0).
  Proof.
    destruct (sigma_points_ok n_obs nm n no states chols scale obs ltac:(tauto)) as (pts & E & P).
    unfold kalman_predict. rewrite E. cbn [rbind]. eexists _, _. split; [reflexivity|].
    assert (T : forall i m s f, (m < nm)%nat -> (s < 2 * n + 1)%nat -> (f < n)%nat ->
      transform_sigma_points nm (2 * n + 1) pts func asc aco i m s f = image i m s f).
    { intros i m s f Hm Hs Hf. rewrite transform_ok by assumption. unfold image, anchored_transition.
      f_equal. f_equal. apply Hfunc; [|assumption]. intros g Hg. rewrite P by assumption.
      now rewrite point_row. }
    intros i m Hm. split; [|split].
    - intros f Hf. apply rsum_ext. intros s Hs. now rewrite T.
    - apply predict_upper.
    - intros W f g Hf Hg. rewrite predict_gram by assumption. f_equal.
      unfold weighted_scatter, weighted_mean. apply rsum_ext. intros s Hs. rewrite !T by assumption.
      do 2 f_equal; f_equal; apply rsum_ext; intros s' Hs'; now rewrite T.
  Qed.
End PredictStep.
