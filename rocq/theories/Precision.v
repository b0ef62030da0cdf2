(** The filter in linear models: covariances depend only on which measurements are
    observed, and more measurements mean smaller covariances. *)
Require Import Reals Lra Lia Psatz Arith Bool String List.
From Verif Require Import PyBase ListFacts RSum Kalman SpecKalman KalmanFacts KalmanOrder PredictFacts PropsKalman Likelihood SpecLikelihood.
Import ListNotations.
Open Scope R_scope.

(** [p] is at most [q] in every direction. *)
Definition at_most (n : nat) (p q : mat) : Prop := forall x, quad n p x <= quad n q x.

Lemma at_most_refl n p : at_most n p p.
Proof. intros x. lra. Qed.
Lemma at_most_trans n p q r : at_most n p q -> at_most n q r -> at_most n p r.
Proof. intros A B x. specialize (A x). specialize (B x). lra. Qed.
Lemma at_most_meq n p p' q q' : meq n p p' -> meq n q q' -> at_most n p' q' -> at_most n p q.
Proof. intros A B C x. rewrite (quad_ext n p p' x A), (quad_ext n q q' x B). apply C. Qed.

Lemma quad_shifted n u h k x :
  quad n (cov n u) (fun a => x a - k * h a)
  = quad n (cov n u) x - 2 * k * bil n (cov n u) x h + k * k * quad n (cov n u) h.
Proof.
  rewrite !quad_bil, !bil_cov.
  rewrite (rsum_ext n _ (fun c => dot n (u c) x * dot n (u c) x + (-2 * k * (dot n (u c) x * dot n (u c) h) + k * k * (dot n (u c) h * dot n (u c) h)))).
  - rewrite !rsum_plus, !rsum_scal_l. ring.
  - intros c _. assert (E : dot n (u c) (fun a => x a - k * h a) = dot n (u c) x - k * dot n (u c) h).
    { unfold dot. rewrite <- rsum_scal_l. rewrite (rsum_ext n (fun a => u c a * (x a - k * h a)) (fun a => u c a * x a + -1 * (k * (u c a * h a)))) by (intros; ring).
      rewrite rsum_plus, rsum_scal_l. ring. }
    rewrite E. ring.
Qed.

Lemma quad_conditional n u h sd x : innovation_var n (cov n u) h sd <> 0 ->
  quad n (conditional_cov n (cov n u) h sd) x
  = quad n (cov n u) x - bil n (cov n u) x h * bil n (cov n u) x h / innovation_var n (cov n u) h sd.
Proof.
  intros Hs. set (s := innovation_var n (cov n u) h sd) in *. set (g := mat_vec n (cov n u) h).
  assert (E : forall a, mat_vec n (conditional_cov n (cov n u) h sd) x a
    = mat_vec n (cov n u) x a + (- (bil n (cov n u) x h / s)) * g a).
  { intros a. unfold mat_vec at 1, conditional_cov.
    rewrite (rsum_ext n _ (fun b => cov n u a b * x b + (- (g a / s)) * (x b * mat_vec n (cov n u) h b))).
    - rewrite rsum_plus, rsum_scal_l. change (rsum n (fun b => cov n u a b * x b)) with (mat_vec n (cov n u) x a).
      change (rsum n (fun i => x i * mat_vec n (cov n u) h i)) with (bil n (cov n u) x h). unfold Rdiv. ring.
    - intros b _. rewrite vec_mat_cov. unfold gain. fold s g. unfold Rdiv. ring. }
  rewrite !quad_bil. unfold bil at 1.
  rewrite (rsum_ext n _ (fun a => x a * mat_vec n (cov n u) x a + (- (bil n (cov n u) x h / s)) * (x a * g a))) by (intros a _; rewrite E; ring).
  rewrite rsum_plus, rsum_scal_l. fold (bil n (cov n u) x h). unfold g. fold (bil n (cov n u) x h). fold (bil n (cov n u) x x).
  field. exact Hs.
Qed.

(** The conditional variance is the smallest variance of a linear prediction error. *)
Lemma conditional_least n u h sd k x : 0 < innovation_var n (cov n u) h sd ->
  quad n (conditional_cov n (cov n u) h sd) x <= quad n (cov n u) (fun a => x a - k * h a) + k * k * (sd * sd).
Proof.
  intros Hs. rewrite quad_conditional by lra. rewrite quad_shifted. set (s := innovation_var n (cov n u) h sd) in *.
  set (b := bil n (cov n u) x h).
  assert (E : quad n (cov n u) h = s - sd * sd) by (unfold s, innovation_var; ring). rewrite E.
  assert (0 <= (k * s - b) * (k * s - b) / s).
  { apply Rmult_le_pos; [apply Rle_0_sqr|]. left. now apply Rinv_0_lt_compat. }
  replace ((k * s - b) * (k * s - b) / s) with (k * k * s - 2 * k * b + b * b / s) in * by (field; lra). lra.
Qed.

Lemma conditional_attained n u h sd x : 0 < innovation_var n (cov n u) h sd ->
  exists k, quad n (conditional_cov n (cov n u) h sd) x = quad n (cov n u) (fun a => x a - k * h a) + k * k * (sd * sd).
Proof.
  intros Hs. set (s := innovation_var n (cov n u) h sd) in *. exists (bil n (cov n u) x h / s).
  rewrite quad_conditional by (fold s; lra). fold s. rewrite quad_shifted.
  assert (E : quad n (cov n u) h = s - sd * sd) by (unfold s, innovation_var; ring). rewrite E. field. lra.
Qed.

Lemma conditional_monotone n u u' h sd : sd <> 0 -> at_most n (cov n u') (cov n u) ->
  at_most n (conditional_cov n (cov n u') h sd) (conditional_cov n (cov n u) h sd).
Proof.
  intros Hsd H x. destruct (conditional_attained n u h sd x) as [k ->]; [now apply innovation_var_pos|].
  pose proof (conditional_least n u' h sd k x (innovation_var_pos n u' h sd Hsd)) as L.
  specialize (H (fun a => x a - k * h a)). lra.
Qed.

Lemma conditional_shrinks n u h sd : sd <> 0 -> at_most n (conditional_cov n (cov n u) h sd) (cov n u).
Proof.
  intros Hsd x. pose proof (conditional_least n u h sd 0 x (innovation_var_pos n u h sd Hsd)) as L.
  rewrite quad_shifted in L. lra.
Qed.

(** Linear images and independent shocks. *)
Definition image_cov (n : nat) (a : mat) (p : mat) (sds : vec) : mat :=
  fun f g => rsum n (fun c => rsum n (fun d => a f c * p c d * a g d)) + if Nat.eq_dec f g then sds f * sds f else 0.

Lemma quad_image n a p sds x :
  quad n (image_cov n a p sds) x
  = quad n p (fun c => rsum n (fun f => x f * a f c)) + rsum n (fun f => x f * x f * (sds f * sds f)).
Proof.
  unfold quad, dot, mat_vec, image_cov.
  transitivity (rsum n (fun f => x f * (rsum n (fun c => rsum n (fun d => a f c * (p c d * rsum n (fun g => x g * a g d)))))
                                 + x f * x f * (sds f * sds f))).
  - apply rsum_ext. intros f Hf.
    rewrite (rsum_ext n (fun g => (rsum n (fun c => rsum n (fun d => a f c * p c d * a g d)) + (if Nat.eq_dec f g then sds f * sds f else 0)) * x g)
      (fun g => rsum n (fun c => rsum n (fun d => a f c * p c d * a g d)) * x g + (if Nat.eq_dec f g then sds f * sds f * x f else 0))).
    2:{ intros g _. destruct (Nat.eq_dec f g) as [->|]; ring. }
    rewrite rsum_plus.
    assert (Ed : rsum n (fun g => if Nat.eq_dec f g then sds f * sds f * x f else 0) = sds f * sds f * x f).
    { rewrite (rsum_single n f); [destruct (Nat.eq_dec f f); [reflexivity|congruence]|exact Hf|].
      intros g _ Hne. destruct (Nat.eq_dec f g); [congruence|reflexivity]. }
    rewrite Ed. rewrite Rmult_plus_distr_l. f_equal; [|ring]. f_equal.
    rewrite (rsum_ext n (fun g => rsum n (fun c => rsum n (fun d => a f c * p c d * a g d)) * x g)
      (fun g => rsum n (fun c => rsum n (fun d => a f c * (p c d * (x g * a g d)))))).
    2:{ intros g _. rewrite <- rsum_scal_r. apply rsum_ext. intros c _. rewrite <- rsum_scal_r. apply rsum_ext. intros d _. ring. }
    rewrite rsum_swap. apply rsum_ext. intros c _. rewrite rsum_swap. apply rsum_ext. intros d _.
    rewrite !rsum_scal_l. reflexivity.
  - rewrite rsum_plus. f_equal.
    rewrite (rsum_ext n _ (fun f => rsum n (fun c => x f * a f c * rsum n (fun d => p c d * rsum n (fun g => x g * a g d))))).
    2:{ intros f _. rewrite <- rsum_scal_l. apply rsum_ext. intros c _. rewrite rsum_scal_l. ring. }
    rewrite rsum_swap. apply rsum_ext. intros c _. rewrite rsum_scal_r. reflexivity.
Qed.

Lemma image_monotone n a p q sds : at_most n p q -> at_most n (image_cov n a p sds) (image_cov n a q sds).
Proof. intros H x. rewrite !quad_image. specialize (H (fun c => rsum n (fun f => x f * a f c))). lra. Qed.
