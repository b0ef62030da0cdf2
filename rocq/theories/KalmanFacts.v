(** Lemmas about the Kalman filter. *)
Require Import Reals Lra Lia Psatz Arith Bool Permutation List.
From Verif Require Import PyBase RSum Kalman SpecKalman.
Import ListNotations.
Open Scope R_scope.

(** ** The Gram matrix of a QR factor *)

Lemma qr_gram m n a r : is_qr m n a r ->
  forall j k, (j < n)%nat -> (k < n)%nat ->
    rsum n (fun c => r c j * r c k) = rsum m (fun i => a i j * a i k).
Proof.
  intros (_ & q & Hq & Ha) j k Hj Hk. symmetry.
  transitivity (rsum m (fun i => rsum n (fun c => rsum n (fun d => (r c j * r d k) * (q i c * q i d))))).
  { apply rsum_ext. intros i Hi. rewrite (Ha i j Hi Hj), (Ha i k Hi Hk), rsum_prod.
    apply rsum_ext; intros c Hc; apply rsum_ext; intros d Hd. ring. }
  rewrite rsum_swap. apply rsum_ext. intros c Hc. rewrite rsum_swap.
  transitivity (rsum n (fun d => r c j * r d k * (if Nat.eq_dec c d then 1 else 0))).
  { apply rsum_ext. intros d Hd. rewrite rsum_scal_l, Hq by assumption. reflexivity. }
  rewrite (rsum_single n c); [destruct (Nat.eq_dec c c); [ring|congruence]|assumption|].
  intros d Hd Hne. destruct (Nat.eq_dec c d); [congruence|ring].
Qed.

(** ** Linear algebra *)

Lemma mat_vec_ext n p q h g a :
  (a < n)%nat -> meq n p q -> veq n h g -> mat_vec n p h a = mat_vec n q g a.
Proof.
  intros Ha Hp Hh. apply rsum_ext. intros b Hb. rewrite (Hp a b), (Hh b) by assumption. reflexivity.
Qed.

Lemma quad_ext n p q h : meq n p q -> quad n p h = quad n q h.
Proof.
  intros H. apply rsum_ext. intros a Ha. rewrite (mat_vec_ext n p q h h a Ha H) by (intros ? ?; reflexivity).
  reflexivity.
Qed.

Lemma innovation_var_ext n p q h sd : meq n p q -> innovation_var n p h sd = innovation_var n q h sd.
Proof. intros H. unfold innovation_var. now rewrite (quad_ext n p q h H). Qed.

Lemma cov_sym n u a b : cov n u a b = cov n u b a.
Proof. apply rsum_ext. intros; ring. Qed.

Definition symmetric (n : nat) (p : mat) : Prop :=
  forall a b, (a < n)%nat -> (b < n)%nat -> p a b = p b a.

Lemma cov_symmetric n u : symmetric n (cov n u).
Proof. intros a b _ _. apply cov_sym. Qed.

Lemma mat_vec_cov n u h a :
  mat_vec n (cov n u) h a = rsum n (fun c => u c a * dot n (u c) h).
Proof.
  unfold mat_vec, cov.
  transitivity (rsum n (fun b => rsum n (fun c => u c a * u c b * h b))).
  { apply rsum_ext. intros. now rewrite rsum_scal_r. }
  rewrite rsum_swap. apply rsum_ext. intros c Hc. unfold dot. rewrite <- rsum_scal_l.
  apply rsum_ext. intros; ring.
Qed.

(** h' P g *)
Definition bil (n : nat) (p : mat) (h g : vec) : R := rsum n (fun a => h a * mat_vec n p g a).

Lemma bil_cov n u h g :
  bil n (cov n u) h g = rsum n (fun c => dot n (u c) h * dot n (u c) g).
Proof.
  unfold bil.
  transitivity (rsum n (fun a => rsum n (fun c => h a * (u c a * dot n (u c) g)))).
  { apply rsum_ext. intros. now rewrite mat_vec_cov, rsum_scal_l. }
  rewrite rsum_swap. apply rsum_ext. intros c Hc. unfold dot at 2. rewrite <- rsum_scal_r.
  apply rsum_ext. intros; ring.
Qed.

Lemma quad_bil n p h : quad n p h = bil n p h h.
Proof. reflexivity. Qed.

Lemma quad_cov_nonneg n u h : 0 <= quad n (cov n u) h.
Proof. rewrite quad_bil, bil_cov. apply rsum_nonneg. intros. nra. Qed.

Lemma innovation_var_pos n u h sd : sd <> 0 -> 0 < innovation_var n (cov n u) h sd.
Proof. intros H. unfold innovation_var. assert (0 <= quad n (cov n u) h) by apply quad_cov_nonneg. nra. Qed.

(** Cauchy-Schwarz *)
Lemma rsum_cauchy n f g :
  rsum n (fun c => f c * g c) * rsum n (fun c => f c * g c)
  <= rsum n (fun c => f c * f c) * rsum n (fun c => g c * g c).
Proof.
  induction n as [|n IH]; simpl; [lra|].
  set (x := rsum n (fun c => f c * g c)) in *. set (a := rsum n (fun c => f c * f c)) in *.
  set (b := rsum n (fun c => g c * g c)) in *.
  assert (Ha : 0 <= a) by (apply rsum_nonneg; intros; nra).
  assert (Hb : 0 <= b) by (apply rsum_nonneg; intros; nra).
  (* 2 x f g <= a g^2 + b f^2 *)
  enough (2 * x * (f n * g n) <= a * (g n * g n) + b * (f n * f n)) by nra.
  generalize (f n) (g n). intros p q.
  destruct (Req_dec a 0) as [Za|Na].
  - clearbody x a b. subst a. assert (X2 : 0 <= x * x) by apply Rle_0_sqr.
    assert (X : x * x = 0) by lra.
    destruct (Rmult_integral _ _ X) as [->| ->]; assert (0 <= p * p) by nra; nra.
  - assert (0 < a) by lra.
    assert (0 <= (a * q - x * p) * (a * q - x * p)) by apply Rle_0_sqr.
    assert (0 <= p * p) by apply Rle_0_sqr.
    assert (a * (2 * x * (p * q)) <= a * (a * (q * q) + b * (p * p))).
    { assert (x * x * (p * p) <= a * b * (p * p)) by (apply Rmult_le_compat_r; assumption). nra. }
    apply Rmult_le_reg_l with a; assumption.
Qed.

Lemma joint_var_pos n u h g s t : s <> 0 -> t <> 0 ->
  0 < innovation_var n (cov n u) h s * innovation_var n (cov n u) g t
      - bil n (cov n u) h g * bil n (cov n u) h g.
Proof.
  intros Hs Ht. unfold innovation_var. rewrite !quad_bil, !bil_cov.
  assert (C := rsum_cauchy n (fun c => dot n (u c) h) (fun c => dot n (u c) g)). simpl in C.
  set (x := rsum n (fun c => dot n (u c) h * dot n (u c) g)) in *.
  set (a := rsum n (fun c => dot n (u c) h * dot n (u c) h)) in *.
  set (b := rsum n (fun c => dot n (u c) g * dot n (u c) g)) in *.
  assert (0 <= a) by (apply rsum_nonneg; intros; nra).
  assert (0 <= b) by (apply rsum_nonneg; intros; nra).
  assert (0 < s * s) by nra. assert (0 < t * t) by nra. nra.
Qed.

Lemma vec_mat_cov n u h b :
  rsum n (fun c => h c * cov n u c b) = mat_vec n (cov n u) h b.
Proof. apply rsum_ext. intros c Hc. rewrite (cov_sym n u c b). ring. Qed.

(** ** The update matrix *)

Section OneUpdate.
  Variables (n : nat) (u : mat) (h : vec) (sd : R) (r : mat).
  Let fstar : vec := fun a => dot n (u a) h.
  Hypothesis Hr : is_qr (S n) (S n) (update_matrix sd fstar u) r.
  Let s := innovation_var n (cov n u) h sd.

  Lemma root_sq : r O O * r O O = s.
  Proof.
    assert (G := qr_gram _ _ _ _ Hr O O ltac:(lia) ltac:(lia)).
    rewrite !rsum_S_l in G. destruct Hr as (T & _).
    rewrite (rsum_zero n (fun i => r (S i) O * r (S i) O)) in G.
    2:{ intros i Hi. rewrite (T (S i) O) by lia. ring. }
    cbn [update_matrix] in G. unfold s, innovation_var. rewrite quad_bil, bil_cov. unfold fstar in G. lra.
  Qed.

  Lemma root_gain b : (b < n)%nat -> r O O * r O (S b) = mat_vec n (cov n u) h b.
  Proof.
    intros Hb.
    assert (G := qr_gram _ _ _ _ Hr O (S b) ltac:(lia) ltac:(lia)).
    rewrite !rsum_S_l in G. destruct Hr as (T & _).
    rewrite (rsum_zero n (fun i => r (S i) O * r (S i) (S b))) in G.
    2:{ intros i Hi. rewrite (T (S i) O) by lia. ring. }
    cbn [update_matrix] in G. rewrite mat_vec_cov.
    replace (rsum n (fun c => u c b * dot n (u c) h)) with (rsum n (fun i => fstar i * u i b))
      by (apply rsum_ext; intros; unfold fstar; ring). lra.
  Qed.

  Lemma new_gram a b : (a < n)%nat -> (b < n)%nat ->
    cov n (fun c d => r (S c) (S d)) a b = cov n u a b - r O (S a) * r O (S b).
  Proof.
    intros Ha Hb.
    assert (G := qr_gram _ _ _ _ Hr (S a) (S b) ltac:(lia) ltac:(lia)).
    rewrite !rsum_S_l in G. cbn [update_matrix] in G. unfold cov. lra.
  Qed.

  Hypothesis Hs : s <> 0.

  Lemma root_nz : r O O <> 0.
  Proof. intros E. apply Hs. rewrite <- root_sq, E. ring. Qed.

  Lemma gain_ok b : (b < n)%nat -> r O (S b) / r O O = gain n (cov n u) h sd b.
  Proof.
    intros Hb. unfold gain. fold s. rewrite <- root_gain, <- root_sq by assumption. field. apply root_nz.
  Qed.

  Lemma new_cov a b : (a < n)%nat -> (b < n)%nat ->
    cov n (fun c d => r (S c) (S d)) a b = conditional_cov n (cov n u) h sd a b.
  Proof.
    intros Ha Hb. rewrite new_gram by assumption. unfold conditional_cov.
    rewrite vec_mat_cov, <- gain_ok, <- root_gain by assumption. field. apply root_nz.
  Qed.

  Lemma new_upper : upper_triangular n (fun c d => r (S c) (S d)).
  Proof. intros a b Ha Hb Hlt. destruct Hr as (T & _). apply T; lia. Qed.

  Lemma abs_root : Rabs (r O O) * Rabs (r O O) = s.
  Proof. rewrite <- Rabs_mult, Rabs_pos_eq; [apply root_sq|nra]. Qed.
End OneUpdate.

(** ** Log densities *)

Lemma norm_logpdf_density x v sc : 0 < v -> sc * sc = v ->
  exp (norm_logpdf x 0 sc) = normal_density 0 v x.
Proof.
  intros Hv <-. unfold norm_logpdf, normal_density.
  set (v := sc * sc) in *. clearbody v. assert (0 < PI) by apply PI_RGT_0.
  assert (Hp : 0 < 2 * PI * v) by nra.
  replace (- (ln (2 * PI * v) + (x - 0) * (x - 0) / v) / 2)
    with (- (/ 2 * ln (2 * PI * v)) + - ((x - 0) * (x - 0)) / (2 * v)) by (field; lra).
  rewrite exp_plus, exp_Ropp. f_equal. f_equal.
  rewrite <- (exp_ln (sqrt (2 * PI * v))) by (apply sqrt_lt_R0; assumption).
  f_equal. rewrite <- Rpower_sqrt by assumption. unfold Rpower. rewrite ln_exp. reflexivity.
Qed.

Lemma normal_density_pos mean v x : 0 < v -> 0 < normal_density mean v x.
Proof.
  intros Hv. unfold normal_density. assert (0 < PI) by apply PI_RGT_0.
  apply Rmult_lt_0_compat; [|apply exp_pos]. apply Rinv_0_lt_compat, sqrt_lt_R0. nra.
Qed.

Lemma normal_density_shift mean v x : normal_density 0 v (x - mean) = normal_density mean v x.
Proof. unfold normal_density. now rewrite Rminus_0_r. Qed.

Lemma logsumexp_ln n f : (1 <= n)%nat -> logsumexp n f = ln (rsum n (fun i => exp (f i))).
Proof.
  intros Hn. unfold logsumexp. set (c := rmax n f).
  replace (rsum n (fun i => exp (f i))) with (exp c * rsum n (fun i => exp (f i - c))).
  - rewrite ln_mult; [now rewrite ln_exp|apply exp_pos|]. apply rsum_pos; [assumption|]. intros; apply exp_pos.
  - rewrite <- rsum_scal_l. apply rsum_ext. intros i Hi. rewrite <- exp_plus. f_equal. ring.
Qed.
