(** Lemmas about multivariate normal densities. *)
Require Import Reals Lra Lia Psatz Arith Bool List.
From Verif Require Import PyBase RSum Kalman SpecKalman KalmanFacts SpecGaussian QRWitness.
Import ListNotations.
Open Scope R_scope.

(** ** Products *)

Lemma rprod_ext n f g : (forall i, (i < n)%nat -> f i = g i) -> rprod n f = rprod n g.
Proof.
  induction n as [|n IH]; intros H; simpl; [reflexivity|].
  rewrite IH by (intros; apply H; lia). rewrite H by lia. reflexivity.
Qed.

Lemma rprod_mult n f g : rprod n (fun i => f i * g i) = rprod n f * rprod n g.
Proof. induction n as [|n IH]; simpl; [lra|]. rewrite IH. ring. Qed.

Lemma rprod_nz n f : rprod n f <> 0 <-> forall i, (i < n)%nat -> f i <> 0.
Proof.
  induction n as [|n IH]; simpl.
  - split; [intros _ i Hi; lia|intros _; lra].
  - split.
    + intros H i Hi E. apply H. destruct (Nat.eq_dec i n) as [->|Hne]; [rewrite E; ring|].
      assert (N : rprod n f <> 0) by (intros Z; apply H; rewrite Z; ring).
      exfalso. apply (proj1 IH N i ltac:(lia) E).
    + intros H E. destruct (Rmult_integral _ _ E) as [Z|Z]; [|apply (H n); auto; lia].
      revert Z. apply IH. intros i Hi. apply H. lia.
Qed.

Lemma rprod_pos n f : (forall i, (i < n)%nat -> 0 < f i) -> 0 < rprod n f.
Proof.
  induction n as [|n IH]; intros H; simpl; [lra|].
  apply Rmult_lt_0_compat; [apply IH; intros; apply H; lia|apply H; lia].
Qed.

Lemma rprod_nonneg n f : (forall i, (i < n)%nat -> 0 <= f i) -> 0 <= rprod n f.
Proof.
  induction n as [|n IH]; intros H; simpl; [lra|].
  apply Rmult_le_pos; [apply IH; intros; apply H; lia|apply H; lia].
Qed.

Lemma rprod_inv n f : rprod n (fun i => / f i) = / rprod n f.
Proof. induction n as [|n IH]; simpl; [now rewrite Rinv_1|]. now rewrite IH, Rinv_mult. Qed.

Lemma rprod_const n c : rprod n (fun _ => c) = c ^ n.
Proof. induction n as [|n IH]; simpl; [reflexivity|]. rewrite IH. ring. Qed.

Lemma rprod_exp n f : rprod n (fun i => exp (f i)) = exp (rsum n f).
Proof. induction n as [|n IH]; simpl; [now rewrite exp_0|]. now rewrite IH, exp_plus. Qed.

Lemma rprod_sq n f : rprod n (fun i => f i * f i) = rprod n (fun i => Rabs (f i)) * rprod n (fun i => Rabs (f i)).
Proof.
  rewrite <- rprod_mult. apply rprod_ext. intros i _. rewrite <- Rabs_mult. symmetry. apply Rabs_pos_eq. nra.
Qed.

(** ** Triangular systems *)

Lemma solve_stable u e k j a : (a < k)%nat -> (k <= j)%nat -> solve u e j a = solve u e k a.
Proof.
  intros Ha Hj. induction j as [|j IH]; [lia|]. destruct (Nat.eq_dec k (S j)) as [->|Hne]; [reflexivity|].
  simpl. destruct (Nat.eqb_spec a j); [lia|]. apply IH. lia.
Qed.

Lemma solve_ok n u e : proper_root n u -> forall a, (a < n)%nat ->
  rsum n (fun c => u c a * solve u e n c) = e a.
Proof.
  intros [Ht Hd] a Ha. rewrite (rsum_trunc n (S a)); [|lia|].
  2:{ intros i Hi Hin. rewrite (Ht i a) by lia. ring. }
  simpl. rewrite (solve_stable u e (S a) n a) by lia. simpl. rewrite Nat.eqb_refl.
  replace (rsum a (fun c => u c a * solve u e n c)) with (rsum a (fun c => u c a * solve u e a c)).
  2:{ apply rsum_ext. intros c Hc. now rewrite (solve_stable u e a n c) by lia. }
  field. now apply Hd.
Qed.

(** u' is injective *)
Lemma triangular_zero n u t : proper_root n u ->
  (forall a, (a < n)%nat -> rsum n (fun c => u c a * t c) = 0) -> forall a, (a < n)%nat -> t a = 0.
Proof.
  intros [Ht Hd] H a. induction a as [a IH] using (well_founded_induction lt_wf). intros Ha.
  specialize (H a Ha). rewrite (rsum_trunc n (S a)) in H; [|lia|].
  2:{ intros i Hi Hin. rewrite (Ht i a) by lia. ring. }
  simpl in H. rewrite rsum_zero in H.
  2:{ intros c Hc. rewrite IH by lia. ring. }
  specialize (Hd a Ha). assert (E : u a a * t a = 0) by lra. destruct (Rmult_integral _ _ E); [contradiction|assumption].
Qed.

Lemma triangular_unique n u s t : proper_root n u ->
  (forall a, (a < n)%nat -> rsum n (fun c => u c a * s c) = rsum n (fun c => u c a * t c)) ->
  forall a, (a < n)%nat -> s a = t a.
Proof.
  intros Hu H a Ha. assert (E : s a - t a = 0); [|lra].
  apply (triangular_zero n u (fun c => s c - t c) Hu); [|assumption].
  intros b Hb. rewrite (rsum_ext n _ (fun c => u c b * s c - u c b * t c)) by (intros; ring).
  rewrite rsum_minus, (H b Hb). ring.
Qed.

Lemma solve_unique n u e z : proper_root n u ->
  (forall a, (a < n)%nat -> rsum n (fun c => u c a * z c) = e a) ->
  forall a, (a < n)%nat -> solve u e n a = z a.
Proof.
  intros Hu H. apply (triangular_unique n u); [assumption|]. intros a Ha. rewrite H by assumption. now apply solve_ok.
Qed.

(** ** Rank one downdates: W'W = I - c v v' *)

Lemma upper_leading n k u : (k <= n)%nat -> upper_triangular n u -> upper_triangular k u.
Proof. intros H Ht a b Ha Hb. apply Ht; lia. Qed.

Lemma gram_leading n k u a b : (k <= n)%nat -> (a < k)%nat -> (b < k)%nat -> upper_triangular n u ->
  cov n u a b = cov k u a b.
Proof.
  intros Hk Ha Hb Ht. unfold cov. apply rsum_trunc; [assumption|]. intros i Hi Hin. rewrite (Ht i a) by lia. ring.
Qed.

Section Downdate.
  Variables (n : nat) (w : mat) (v : vec) (c : R).
  Hypothesis Hw : upper_triangular n w.
  Hypothesis Hg : forall a b, (a < n)%nat -> (b < n)%nat ->
    cov n w a b = (if Nat.eq_dec a b then 1 else 0) - c * (v a * v b).
  Hypothesis Hc : 0 <= c.
  Hypothesis Hpos : 0 < 1 - c * rsum n (fun a => v a * v a).

  Lemma partial_pos k : (k <= n)%nat -> 0 < 1 - c * rsum k (fun a => v a * v a).
  Proof.
    intros Hk. replace n with (k + (n - k))%nat in Hpos by lia. rewrite rsum_app in Hpos.
    assert (0 <= rsum (n - k) (fun i => v (k + i)%nat * v (k + i)%nat)) by (apply rsum_nonneg; intros; nra).
    nra.
  Qed.

  (** (W'W) t = t - c v (v.t) on the leading block *)
  Lemma gram_apply k t b : (k <= n)%nat -> (b < k)%nat ->
    rsum k (fun a => w a b * rsum k (fun e => w a e * t e)) = t b - c * v b * rsum k (fun e => v e * t e).
  Proof.
    intros Hk Hb.
    transitivity (rsum k (fun e => cov k w b e * t e)).
    { unfold cov. transitivity (rsum k (fun a => rsum k (fun e => w a b * w a e * t e))).
      - apply rsum_ext. intros a Ha. rewrite <- rsum_scal_l. apply rsum_ext. intros; ring.
      - rewrite rsum_swap. apply rsum_ext. intros e He. now rewrite rsum_scal_r. }
    transitivity (rsum k (fun e => (if Nat.eq_dec b e then t e else 0) - c * v b * (v e * t e))).
    { apply rsum_ext. intros e He. rewrite <- (gram_leading n k w b e) by (auto; lia).
      rewrite Hg by lia. destruct (Nat.eq_dec b e); ring. }
    rewrite rsum_minus, rsum_scal_l. f_equal. rewrite (rsum_single k b); [|assumption|].
    - destruct (Nat.eq_dec b b); congruence.
    - intros e He Hne. destruct (Nat.eq_dec b e); congruence.
  Qed.

  Lemma downdate_diagonal k : (k <= n)%nat ->
    rprod k (fun a => w a a * w a a) = 1 - c * rsum k (fun a => v a * v a).
  Proof.
    induction k as [|k IH]; intros Hk; [simpl; ring|].
    specialize (IH ltac:(lia)). assert (Hbeta := partial_pos k ltac:(lia)).
    set (s := rsum k (fun a => v a * v a)) in *. set (beta := 1 - c * s) in *. set (y := v k).
    assert (Hroot : proper_root k w).
    { split; [apply (upper_leading n); [lia|assumption]|]. intros a Ha E.
      assert (N : rprod k (fun a => w a a * w a a) <> 0) by (rewrite IH; lra).
      apply (proj1 (rprod_nz _ _) N a Ha). rewrite E. ring. }
    set (alpha := - c * y / beta).
    assert (Hcol : forall b, (b < k)%nat -> rsum k (fun a => w a b * w a k) = - c * v b * y).
    { intros b Hb. assert (G := Hg b k ltac:(lia) ltac:(lia)). unfold cov in G.
      rewrite (rsum_trunc n k) in G; [|lia|intros i Hi Hin; rewrite (Hw i b) by lia; ring].
      rewrite G. destruct (Nat.eq_dec b k); [lia|]. unfold y. ring. }
    assert (E : forall a, (a < k)%nat -> w a k = alpha * rsum k (fun e => w a e * v e)).
    { apply (triangular_unique k w (fun a => w a k) (fun a => alpha * rsum k (fun e => w a e * v e)) Hroot).
      intros b Hb. rewrite (Hcol b Hb).
      rewrite (rsum_ext k _ (fun a => alpha * (w a b * rsum k (fun e => w a e * v e)))) by (intros; ring).
      rewrite rsum_scal_l, gram_apply by lia. fold s. unfold alpha. fold beta.
      replace (v b - c * v b * s) with (v b * beta) by (unfold beta; ring). field. lra. }
    assert (Hsq : rsum k (fun a => w a k * w a k) = - alpha * c * y * s).
    { transitivity (rsum k (fun a => alpha * (w a k * rsum k (fun e => w a e * v e)))).
      { apply rsum_ext. intros a Ha. rewrite (E a Ha) at 1. ring. }
      rewrite rsum_scal_l.
      replace (rsum k (fun a => w a k * rsum k (fun e => w a e * v e)))
        with (rsum k (fun e => v e * rsum k (fun a => w a e * w a k))).
      - rewrite (rsum_ext k _ (fun e => (- c * y) * (v e * v e))) by (intros e He; rewrite Hcol by assumption; ring).
        rewrite rsum_scal_l. fold s. ring.
      - transitivity (rsum k (fun e => rsum k (fun a => w a k * (w a e * v e)))).
        + apply rsum_ext. intros e He. rewrite <- rsum_scal_l. apply rsum_ext. intros; ring.
        + rewrite rsum_swap. apply rsum_ext. intros a Ha. now rewrite rsum_scal_l. }
    assert (G := Hg k k ltac:(lia) ltac:(lia)). rewrite (gram_leading n (S k) w k k) in G by (auto; lia).
    unfold cov in G. simpl in G. rewrite Hsq in G. fold y in G. destruct (Nat.eq_dec k k); [|congruence].
    simpl. rewrite IH. fold y s. fold beta.
    replace (w k k * w k k) with (1 - c * (y * y) + alpha * c * y * s) by lra.
    unfold alpha. replace (1 - c * (s + y * y)) with (beta - c * (y * y)) by (unfold beta; ring).
    assert (Hs : c * s = 1 - beta) by (unfold beta; ring).
    transitivity (beta - beta * c * (y * y) - c * y * y * (c * s)); [field; lra|]. rewrite Hs. ring.
  Qed.

  Lemma downdate_proper : proper_root n w.
  Proof.
    split; [assumption|]. intros a Ha E.
    assert (N : rprod n (fun a => w a a * w a a) <> 0) by (rewrite downdate_diagonal by lia; lra).
    apply (proj1 (rprod_nz _ _) N a Ha). rewrite E. ring.
  Qed.

  (** The solution of W'z = q is as long as q is with respect to (W'W)^-1. *)
  Lemma downdate_norm q z :
    (forall b, (b < n)%nat -> rsum n (fun a => w a b * z a) = q b) ->
    rsum n (fun a => z a * z a)
    = rsum n (fun a => q a * q a)
      + c / (1 - c * rsum n (fun a => v a * v a)) * (rsum n (fun a => v a * q a) * rsum n (fun a => v a * q a)).
  Proof.
    intros Hz. set (s := rsum n (fun a => v a * v a)) in *. set (vq := rsum n (fun a => v a * q a)).
    set (beta := 1 - c * s) in *. set (g := fun a => q a + v a * (c / beta * vq)).
    assert (Hvg : rsum n (fun e => v e * g e) = vq / beta).
    { unfold g. rewrite (rsum_ext n _ (fun e => v e * q e + (v e * v e) * (c / beta * vq))) by (intros; ring).
      rewrite rsum_plus, rsum_scal_r. fold vq s.
      replace (s * (c / beta * vq)) with ((c * s) * vq / beta) by (field; lra).
      replace (c * s) with (1 - beta) by (unfold beta; ring). field. lra. }
    assert (E : forall a, (a < n)%nat -> z a = rsum n (fun e => w a e * g e)).
    { apply (triangular_unique n w z (fun a => rsum n (fun e => w a e * g e)) downdate_proper).
      intros b Hb. rewrite (Hz b Hb), gram_apply by lia. rewrite Hvg. unfold g. field. lra. }
    transitivity (rsum n (fun e => g e * q e)).
    { transitivity (rsum n (fun a => z a * rsum n (fun e => w a e * g e))).
      { apply rsum_ext. intros a Ha. now rewrite <- E. }
      transitivity (rsum n (fun e => rsum n (fun a => g e * (w a e * z a)))).
      - rewrite <- rsum_swap. apply rsum_ext. intros a Ha. rewrite <- rsum_scal_l. apply rsum_ext. intros; ring.
      - apply rsum_ext. intros e He. now rewrite rsum_scal_l, Hz. }
    unfold g. rewrite (rsum_ext n _ (fun e => q e * q e + (v e * q e) * (c / beta * vq))) by (intros; ring).
    rewrite rsum_plus, rsum_scal_r. fold vq. ring.
  Qed.
End Downdate.

(** ** Change of the square root *)

Lemma sandwich_zero n u (m : mat) : proper_root n u ->
  (forall a b, (a < n)%nat -> (b < n)%nat ->
     rsum n (fun i => u i a * rsum n (fun j => u j b * m i j)) = 0) ->
  forall i j, (i < n)%nat -> (j < n)%nat -> m i j = 0.
Proof.
  intros Hu H i j Hi Hj. apply (triangular_zero n u (fun j => m i j) Hu); [|assumption].
  intros b Hb. apply (triangular_zero n u (fun i => rsum n (fun j => u j b * m i j)) Hu); [|assumption].
  intros a Ha. now apply H.
Qed.

Section Relative.
  Variables (n : nat) (u v : mat).
  Hypothesis Hu : proper_root n u.
  Hypothesis Hv : upper_triangular n v.

  (** v = relative * u *)
  Definition relative : mat := fun a => solve u (v a) n.

  Lemma relative_ok a b : (b < n)%nat -> v a b = rsum n (fun c => u c b * relative a c).
  Proof. intros Hb. unfold relative. now rewrite solve_ok. Qed.

  Lemma relative_upper : upper_triangular n relative.
  Proof.
    intros a b Ha Hb Hba.
    apply (triangular_zero a u (fun c => relative a c)); [|intros d Hd|assumption].
    - destruct Hu as [Ht Hd]. split; [apply (upper_leading n); [lia|assumption]|]. intros; apply Hd; lia.
    - transitivity (v a d); [|apply Hv; lia]. rewrite relative_ok by lia. symmetry. apply rsum_trunc; [lia|].
      intros i Hi Hin. destruct Hu as [Ht _]. rewrite (Ht i d) by lia. ring.
  Qed.

  Lemma relative_diagonal a : (a < n)%nat -> v a a = relative a a * u a a.
  Proof.
    intros Ha. rewrite relative_ok by assumption. rewrite (rsum_single n a); [ring|assumption|].
    intros i Hi Hne. destruct Hu as [Ht _]. destruct (Nat.lt_trichotomy i a) as [H|[H|H]]; [|lia|].
    - rewrite relative_upper by lia. ring.
    - rewrite (Ht i a) by lia. ring.
  Qed.

  Lemma relative_cov a b : (a < n)%nat -> (b < n)%nat ->
    cov n v a b = rsum n (fun i => u i a * rsum n (fun j => u j b * cov n relative i j)).
  Proof.
    intros Ha Hb. unfold cov at 1.
    transitivity (rsum n (fun c => rsum n (fun i => rsum n (fun j =>
      u i a * (u j b * (relative c i * relative c j)))))).
    { apply rsum_ext. intros c Hc. rewrite (relative_ok c a), (relative_ok c b) by assumption.
      rewrite <- rsum_scal_r. apply rsum_ext. intros i Hi. rewrite <- rsum_scal_l. apply rsum_ext. intros; ring. }
    rewrite rsum_swap. apply rsum_ext. intros i Hi. rewrite rsum_swap.
    rewrite <- rsum_scal_l. apply rsum_ext. intros j Hj. unfold cov.
    rewrite rsum_scal_l, rsum_scal_l. reflexivity.
  Qed.
End Relative.

(** ** One measurement *)

Lemma normal_density_1 z : normal_density 0 1 z = / sqrt (2 * PI) * exp (- (z * z) / 2).
Proof. unfold normal_density. rewrite Rmult_1_r. f_equal. f_equal. field. Qed.

Lemma mvn_density_exp n mean u x :
  mvn_density n mean u x
  = (/ sqrt (2 * PI)) ^ n
    * exp (- rsum n (fun a => standardized n mean u x a * standardized n mean u x a) / 2)
    / rprod n (fun a => Rabs (u a a)).
Proof.
  unfold mvn_density, Rdiv. rewrite rprod_mult, rprod_inv. f_equal.
  rewrite (rprod_ext n _ (fun a => / sqrt (2 * PI) * exp (- / 2 * (standardized n mean u x a * standardized n mean u x a)))).
  - rewrite rprod_mult, rprod_const, rprod_exp, rsum_scal_l. f_equal. f_equal. field.
  - intros a Ha. rewrite normal_density_1. f_equal. f_equal. field.
Qed.

Lemma sqrt_2pi_pos : 0 < sqrt (2 * PI).
Proof. apply sqrt_lt_R0. assert (H := PI_RGT_0). lra. Qed.

Lemma mvn_density_pos n mean u x : proper_root n u -> 0 < mvn_density n mean u x.
Proof.
  intros [_ Hd]. apply rprod_pos. intros a Ha. apply Rdiv_lt_0_compat.
  - rewrite normal_density_1. apply Rmult_lt_0_compat; [apply Rinv_0_lt_compat, sqrt_2pi_pos|apply exp_pos].
  - apply Rabs_pos_lt. now apply Hd.
Qed.

Lemma normal_density_var mean s z : s <> 0 ->
  normal_density mean (s * s) z = / sqrt (2 * PI) / Rabs s * exp (- ((z - mean) * (z - mean)) / (2 * (s * s))).
Proof.
  intros Hs. unfold normal_density. f_equal. assert (H := PI_RGT_0).
  rewrite sqrt_mult; [|lra|nra]. rewrite <- (Rabs_pos_eq (s * s)) by nra. rewrite Rabs_mult.
  rewrite sqrt_square by apply Rabs_pos. rewrite Rinv_mult. reflexivity.
Qed.

Section Bayes.
  Variables (n : nat) (mean : vec) (u : mat) (h : vec) (sd offset y : R) (mean' : vec) (v : mat).
  Hypothesis Hu : proper_root n u.
  Hypothesis Hv : upper_triangular n v.
  Hypothesis Hsd : sd <> 0.
  Hypothesis Hcov : meq n (cov n v) (conditional_cov n (cov n u) h sd).
  Hypothesis Hmean : veq n mean' (conditional_mean n mean (cov n u) h sd offset y).

  Let uh : vec := fun c => dot n (u c) h.
  Let s2 := innovation_var n (cov n u) h sd.
  Let w := relative n u v.

  Let s2_pos : 0 < s2.
  Proof. now apply innovation_var_pos. Qed.

  Let s2_eq : s2 = rsum n (fun a => uh a * uh a) + sd * sd.
  Proof. unfold s2, innovation_var. rewrite quad_bil, bil_cov. reflexivity. Qed.

  Let w_cov a b : (a < n)%nat -> (b < n)%nat ->
    cov n w a b = (if Nat.eq_dec a b then 1 else 0) - / s2 * (uh a * uh b).
  Proof.
    intros Ha Hb. assert (E : cov n w a b - ((if Nat.eq_dec a b then 1 else 0) - / s2 * (uh a * uh b)) = 0); [|lra].
    refine (sandwich_zero n u (fun a b => cov n w a b - ((if Nat.eq_dec a b then 1 else 0) - / s2 * (uh a * uh b))) Hu _ a b Ha Hb).
    clear a b Ha Hb. intros a b Ha Hb.
    assert (E := relative_cov n u v Hu a b Ha Hb). fold w in E. rewrite (Hcov a b Ha Hb) in E.
    unfold conditional_cov, gain in E. rewrite vec_mat_cov in E. fold s2 in E. rewrite mat_vec_cov in E.
    change (rsum n (fun c => u c a * dot n (u c) h)) with (rsum n (fun c => u c a * uh c)) in E.
    rewrite mat_vec_cov in E.
    change (rsum n (fun c => u c b * dot n (u c) h)) with (rsum n (fun c => u c b * uh c)) in E.
    transitivity (rsum n (fun i => u i a * rsum n (fun j => u j b * cov n w i j))
                  - rsum n (fun i => u i a * u i b)
                  + / s2 * (rsum n (fun i => u i a * uh i) * rsum n (fun j => u j b * uh j))).
    2:{ unfold cov in E at 1. rewrite <- E. field. lra. }
    rewrite <- rsum_minus, <- rsum_scal_r, <- rsum_scal_l, <- rsum_plus. apply rsum_ext. intros i Hi.
    rewrite (rsum_ext n (fun j => u j b * (cov n w i j - ((if Nat.eq_dec i j then 1 else 0) - / s2 * (uh i * uh j))))
               (fun j => (u j b * cov n w i j - (if Nat.eq_dec i j then u j b else 0)) + / s2 * uh i * (u j b * uh j))).
    2:{ intros j Hj. destruct (Nat.eq_dec i j); ring. }
    rewrite rsum_plus, rsum_minus, rsum_scal_l.
    rewrite (rsum_single n i (fun j => if Nat.eq_dec i j then u j b else 0)); [|assumption|].
    2:{ intros j Hj Hne. destruct (Nat.eq_dec i j); congruence. }
    destruct (Nat.eq_dec i i); [ring|congruence].
  Qed.

  Let w_upper : upper_triangular n w.
  Proof. now apply relative_upper. Qed.

  Let beta_eq : 1 - / s2 * rsum n (fun a => uh a * uh a) = sd * sd / s2.
  Proof. replace (rsum n (fun a => uh a * uh a)) with (s2 - sd * sd) by (rewrite s2_eq; ring). field. lra. Qed.

  Let beta_pos : 0 < 1 - / s2 * rsum n (fun a => uh a * uh a).
  Proof. rewrite beta_eq. apply Rdiv_lt_0_compat; nra. Qed.

  Let c_nonneg : 0 <= / s2.
  Proof. left. now apply Rinv_0_lt_compat. Qed.

  Lemma bayes_proper : proper_root n v.
  Proof.
    split; [assumption|]. intros a Ha. rewrite (relative_diagonal n u v Hu Hv a Ha).
    destruct (downdate_proper n w uh (/ s2) w_upper w_cov c_nonneg beta_pos) as [_ Hd].
    destruct Hu as [_ Hud]. apply Rmult_integral_contrapositive_currified; [now apply Hd|now apply Hud].
  Qed.

  Let det : rprod n (fun a => Rabs (v a a)) = rprod n (fun a => Rabs (u a a)) * (Rabs sd / sqrt s2).
  Proof.
    rewrite (rprod_ext n _ (fun a => Rabs (w a a) * Rabs (u a a))).
    2:{ intros a Ha. rewrite (relative_diagonal n u v Hu Hv a Ha). apply Rabs_mult. }
    rewrite rprod_mult, Rmult_comm. f_equal.
    assert (E := downdate_diagonal n w uh (/ s2) w_upper w_cov c_nonneg beta_pos n ltac:(lia)).
    rewrite beta_eq, rprod_sq in E.
    assert (0 <= rprod n (fun a => Rabs (w a a))) by (apply rprod_nonneg; intros; apply Rabs_pos).
    apply Rsqr_inj; [assumption| |].
    - apply Rmult_le_pos; [apply Rabs_pos|]. left. apply Rinv_0_lt_compat, sqrt_lt_R0, s2_pos.
    - unfold Rsqr. rewrite E. unfold Rdiv.
      replace (Rabs sd * / sqrt s2 * (Rabs sd * / sqrt s2)) with ((Rabs sd * Rabs sd) * / (sqrt s2 * sqrt s2)).
      + rewrite sqrt_sqrt by lra. rewrite <- Rabs_mult, Rabs_pos_eq by nra. reflexivity.
      + field. apply Rgt_not_eq, sqrt_lt_R0, s2_pos.
  Qed.

  Lemma mvn_bayes x :
    mvn_density n mean u x * normal_density (dot n x h + offset) (sd * sd) y
    = measurement_density n mean (cov n u) h sd offset y * mvn_density n mean' v x.
  Proof.
    set (z := standardized n mean u x). set (z' := standardized n mean' v x).
    set (r := y - (dot n mean h + offset)).
    set (q := fun a => z a - uh a * (/ s2 * r)).
    assert (Hz : forall a, (a < n)%nat -> rsum n (fun c => u c a * z c) = x a - mean a).
    { intros a Ha. unfold z, standardized. now rewrite solve_ok. }
    assert (Hz' : forall a, (a < n)%nat -> rsum n (fun c => v c a * z' c) = x a - mean' a).
    { intros a Ha. unfold z', standardized. rewrite solve_ok; [reflexivity|apply bayes_proper|assumption]. }
    assert (Hq : forall b, (b < n)%nat -> rsum n (fun a => w a b * z' a) = q b).
    { apply (triangular_unique n u (fun b => rsum n (fun a => w a b * z' a)) q Hu). intros a Ha.
      transitivity (x a - mean' a).
      - rewrite <- Hz' by assumption.
        transitivity (rsum n (fun c => rsum n (fun a0 => u c a * (w a0 c * z' a0)))).
        { apply rsum_ext. intros c Hc. now rewrite <- rsum_scal_l. }
        rewrite rsum_swap. apply rsum_ext. intros c Hc.
        rewrite (relative_ok n u v Hu c a Ha). fold w. rewrite <- rsum_scal_r. apply rsum_ext. intros; ring.
      - unfold q. rewrite (rsum_ext n _ (fun c => u c a * z c - (u c a * uh c) * (/ s2 * r))) by (intros; ring).
        rewrite rsum_minus, rsum_scal_r, Hz by assumption. rewrite (Hmean a Ha).
        unfold conditional_mean, gain. rewrite mat_vec_cov. fold s2 r.
        change (rsum n (fun c => u c a * dot n (u c) h)) with (rsum n (fun c => u c a * uh c)).
        field. lra. }
    assert (Hhz : dot n x h - dot n mean h = rsum n (fun a => uh a * z a)).
    { unfold dot. rewrite <- rsum_minus.
      rewrite (rsum_ext n _ (fun a => rsum n (fun c => h a * (u c a * z c)))).
      - rewrite rsum_swap. apply rsum_ext. intros c Hc. unfold uh, dot. rewrite <- rsum_scal_r. apply rsum_ext. intros; ring.
      - intros a Ha. rewrite rsum_scal_l, Hz by assumption. ring. }
    assert (Hn := downdate_norm n w uh (/ s2) w_upper w_cov c_nonneg beta_pos q z' Hq).
    rewrite beta_eq in Hn.
    set (N := rsum n (fun a => uh a * uh a)) in *. set (vz := rsum n (fun a => uh a * z a)) in *.
    assert (Hvq : rsum n (fun a => uh a * q a) = vz - N * (/ s2 * r)).
    { unfold q. rewrite (rsum_ext n _ (fun a => uh a * z a - uh a * uh a * (/ s2 * r))) by (intros; ring).
      now rewrite rsum_minus, rsum_scal_r. }
    assert (Hqq : rsum n (fun a => q a * q a)
                  = rsum n (fun a => z a * z a) - 2 * (/ s2 * r) * vz + (/ s2 * r) * (/ s2 * r) * N).
    { unfold q. rewrite (rsum_ext n _ (fun a => z a * z a - 2 * (/ s2 * r) * (uh a * z a)
        + (/ s2 * r) * (/ s2 * r) * (uh a * uh a))) by (intros; ring).
      now rewrite rsum_plus, rsum_minus, !rsum_scal_l. }
    rewrite Hvq, Hqq in Hn.
    rewrite !mvn_density_exp. fold z z'. rewrite det.
    assert (Hsq : sqrt s2 <> 0) by (apply Rgt_not_eq, sqrt_lt_R0, s2_pos).
    unfold measurement_density. fold s2.
    replace s2 with (sqrt s2 * sqrt s2) at 1 by (apply sqrt_sqrt; lra).
    rewrite !normal_density_var by assumption. rewrite (Rabs_pos_eq (sqrt s2)) by apply sqrt_pos.
    rewrite (sqrt_sqrt s2) by lra.
    set (K := / sqrt (2 * PI)).
    assert (Hd : rprod n (fun a => Rabs (u a a)) <> 0).
    { apply rprod_nz. intros a Ha. apply Rabs_no_R0. now apply Hu. }
    assert (Hasd : Rabs sd <> 0) by now apply Rabs_no_R0.
    set (D := rprod n (fun a => Rabs (u a a))) in *.
    match goal with |- K ^ n * exp ?A / D * (K / Rabs sd * exp ?B) = K / sqrt s2 * exp ?C * (K ^ n * exp ?E / (D * (Rabs sd / sqrt s2))) =>
      assert (EE : A + B = C + E);
      [|transitivity (K ^ n * K / D / Rabs sd * (exp A * exp B)); [field; auto|];
        transitivity (K ^ n * K / D / Rabs sd * (exp C * exp E)); [|field; auto];
        rewrite <- !exp_plus, EE; reflexivity]
    end.
    rewrite Hn. replace (y - (dot n mean h + offset)) with r by reflexivity.
    replace (y - (dot n x h + offset)) with (r - vz) by (unfold r; rewrite <- Hhz; ring).
    replace N with (s2 - sd * sd) by (rewrite s2_eq; unfold N; ring).
    field. repeat split; try assumption; lra.
  Qed.
End Bayes.

(** The density only depends on the mean and the covariance matrix. *)
Lemma mvn_density_ext n mean mean' u v x : proper_root n u -> upper_triangular n v ->
  meq n (cov n u) (cov n v) -> veq n mean mean' ->
  proper_root n v /\ mvn_density n mean u x = mvn_density n mean' v x.
Proof.
  intros Hu Hv Hc Hm. set (h := fun _ : nat => 0).
  assert (Z : forall p a, mat_vec n p h a = 0) by (intros; apply rsum_zero; intros; unfold h; ring).
  assert (C : meq n (cov n v) (conditional_cov n (cov n u) h 1)).
  { intros a b Ha Hb. unfold conditional_cov, gain. rewrite Z, <- Hc by assumption. unfold Rdiv. ring. }
  assert (M : veq n mean' (conditional_mean n mean (cov n u) h 1 0 0)).
  { intros a Ha. unfold conditional_mean, gain. rewrite Z, <- Hm by assumption. unfold Rdiv. ring. }
  split; [exact (bayes_proper n u h 1 v Hu Hv R1_neq_R0 C)|].
  assert (E := mvn_bayes n mean u h 1 0 0 mean' v Hu Hv R1_neq_R0 C M x).
  assert (D : forall w, dot n w h = 0) by (intros; apply rsum_zero; intros; unfold h; ring).
  unfold measurement_density, innovation_var, quad in E. rewrite !D in E.
  rewrite (rsum_zero n (fun a => h a * mat_vec n (cov n u) h a)) in E by (intros; unfold h; ring).
  rewrite Rmult_1_r, !Rplus_0_l, Rmult_comm in E.
  apply (Rmult_eq_reg_l (normal_density 0 1 0)); [exact E|].
  apply Rgt_not_eq, normal_density_pos. lra.
Qed.

(** ** Affine transitions with independent shocks *)

Lemma solve_step n u e a : (a < n)%nat ->
  solve u e n a = (e a - rsum a (fun c => u c a * solve u e n c)) / u a a.
Proof.
  intros Ha. rewrite (solve_stable u e (S a) n a) by lia. simpl. rewrite Nat.eqb_refl. f_equal. f_equal.
  apply rsum_ext. intros c Hc. now rewrite (solve_stable u e a n c) by lia.
Qed.

Lemma conditional_root n u h sd : proper_root n u -> sd <> 0 ->
  exists v, proper_root n v /\ meq n (cov n v) (conditional_cov n (cov n u) h sd).
Proof.
  intros Hu Hsd.
  set (r := gram_schmidt (S n) (S n) (update_matrix sd (fun a => dot n (u a) h) u)).
  assert (Hr : is_qr (S n) (S n) (update_matrix sd (fun a => dot n (u a) h) u) r)
    by (apply gram_schmidt_correct; lia).
  exists (fun c d => r (S c) (S d)).
  assert (C : meq n (cov n (fun c d => r (S c) (S d))) (conditional_cov n (cov n u) h sd)).
  { intros a b Ha Hb. apply (new_cov n u h sd r Hr); try assumption. apply Rgt_not_eq. now apply innovation_var_pos. }
  split; [|exact C]. exact (bayes_proper n u h sd _ Hu (new_upper n u h sd r Hr) Hsd C).
Qed.

Section AffineTransition.
  Variables (n : nat) (m : vec) (u : mat) (A : mat) (b q : vec) (v : mat).
  Hypothesis Hu : proper_root n u.
  Hypothesis Hv : upper_triangular n v.
  Hypothesis Hq : forall a, (a < n)%nat -> q a <> 0.
  Hypothesis Hcov : forall a c, (a < n)%nat -> (c < n)%nat ->
    cov n v a c = bil n (cov n u) (A a) (A c) + (if Nat.eq_dec a c then q a * q a else 0).

  Let mean' : vec := fun a => dot n m (A a) + b a.
  Let z (x' : vec) : vec := standardized n mean' v x'.

  Definition transition_invariant (k : nat) (g : nat -> vec) (w : mat) : Prop :=
    proper_root n w /\
    (forall a c, (a < n)%nat -> (c < n)%nat ->
       cov n w a c = cov n u a c - rsum k (fun d => g d a * g d c)) /\
    (forall d a, (d < k)%nat -> (d < a)%nat -> (a < n)%nat -> dot n (g d) (A a) = v d a) /\
    (forall d, (d < k)%nat -> v d d <> 0) /\
    (forall x x',
       mvn_density n m u x * rprod k (fun a => normal_density (dot n x (A a) + b a) (q a * q a) (x' a))
       = rprod k (fun a => normal_density 0 1 (z x' a) / Rabs (v a a))
         * mvn_density n (fun a => m a + rsum k (fun d => g d a * z x' d)) w x).

  Lemma bil_downdate k g w h h' :
    (forall a c, (a < n)%nat -> (c < n)%nat ->
       cov n w a c = cov n u a c - rsum k (fun d => g d a * g d c)) ->
    bil n (cov n w) h h' = bil n (cov n u) h h' - rsum k (fun d => dot n (g d) h * dot n (g d) h').
  Proof.
    intros H. unfold bil, mat_vec.
    transitivity (rsum n (fun a => rsum n (fun c => h a * (cov n u a c * h' c))
                                   - rsum n (fun c => rsum k (fun d => (g d a * h a) * (g d c * h' c))))).
    { apply rsum_ext. intros a Ha. rewrite <- rsum_scal_l, <- rsum_minus. apply rsum_ext. intros c Hc.
      rewrite (H a c Ha Hc).
      replace (rsum k (fun d => g d a * h a * (g d c * h' c)))
        with (rsum k (fun d => g d a * g d c) * (h a * h' c)); [ring|].
      rewrite <- rsum_scal_r. apply rsum_ext. intros; ring. }
    rewrite rsum_minus. f_equal.
    - apply rsum_ext. intros a Ha. now rewrite rsum_scal_l.
    - transitivity (rsum n (fun a => rsum k (fun d => (g d a * h a) * dot n (g d) h'))).
      + apply rsum_ext. intros a Ha. rewrite rsum_swap. apply rsum_ext. intros d Hd. now rewrite rsum_scal_l.
      + rewrite rsum_swap. apply rsum_ext. intros d Hd. now rewrite rsum_scal_r.
  Qed.

  Lemma bil_sym w h h' : bil n (cov n w) h h' = bil n (cov n w) h' h.
  Proof. rewrite !bil_cov. apply rsum_ext. intros; ring. Qed.

  Lemma transition_induction k : (k <= n)%nat -> exists g w, transition_invariant k g w.
  Proof.
    induction k as [|k IH]; intros Hk.
    - exists (fun _ _ => 0), u. split; [assumption|]. repeat split.
      + intros a c _ _. simpl. ring.
      + intros; lia.
      + intros; lia.
      + intros x x'. simpl. rewrite Rmult_1_r, Rmult_1_l.
        apply (mvn_density_ext n m _ u u x Hu (proj1 Hu)); [intros ? ? _ _; reflexivity|].
        intros a Ha. simpl. ring.
    - destruct IH as (g & w & Hw & Hwc & Hg & Hvd & Hden); [lia|].
      destruct (conditional_root n w (A k) (q k) Hw (Hq k ltac:(lia))) as (w' & Hw' & Hwc').
      set (s2 := innovation_var n (cov n w) (A k) (q k)) in *.
      assert (Hs2 : 0 < s2) by (apply innovation_var_pos, Hq; lia).
      assert (Hbil : forall a, (k <= a)%nat -> (a < n)%nat ->
        bil n (cov n w) (A k) (A a) + (if Nat.eq_dec k a then q k * q k else 0) = v k k * v k a).
      { intros a Hka Ha. rewrite (bil_downdate k g w (A k) (A a) Hwc).
        assert (E := Hcov k a ltac:(lia) Ha).
        unfold cov in E at 1. rewrite (rsum_trunc n (S k)) in E; [|lia|].
        2:{ intros i Hi Hin. rewrite (Hv i k) by lia. ring. }
        simpl in E.
        rewrite (rsum_ext k (fun d => dot n (g d) (A k) * dot n (g d) (A a)) (fun d => v d k * v d a)).
        2:{ intros d Hd. rewrite (Hg d k), (Hg d a) by lia. reflexivity. }
        lra. }
      assert (Hvk2 : s2 = v k k * v k k).
      { unfold s2, innovation_var. rewrite quad_bil. rewrite <- (Hbil k) by lia.
        destruct (Nat.eq_dec k k); [reflexivity|congruence]. }
      assert (Hvk : v k k <> 0) by (intros E; rewrite E in Hvk2; lra).
      set (gk := fun a => mat_vec n (cov n w) (A k) a / v k k).
      set (g' := fun d => if (d =? k)%nat then gk else g d).
      assert (G1 : forall d, (d < k)%nat -> g' d = g d).
      { intros d Hd. unfold g'. destruct (Nat.eqb_spec d k); [lia|reflexivity]. }
      assert (G2 : g' k = gk) by (unfold g'; now rewrite Nat.eqb_refl).
      exists g', w'. split; [assumption|]. split; [|split; [|split]].
      + intros a c Ha Hc. rewrite Hwc' by assumption. unfold conditional_cov, gain. fold s2.
        rewrite vec_mat_cov, Hwc by assumption. simpl. rewrite G2.
        rewrite (rsum_ext k (fun d => g' d a * g' d c) (fun d => g d a * g d c)).
        2:{ intros d Hd. now rewrite G1. }
        unfold gk. rewrite Hvk2. field. assumption.
      + intros d a Hd Hda Ha. destruct (Nat.eq_dec d k) as [->|Hne].
        * rewrite G2. unfold gk, dot.
          rewrite (rsum_ext n _ (fun i => / v k k * (A a i * mat_vec n (cov n w) (A k) i)))
            by (intros; unfold Rdiv; ring).
          rewrite rsum_scal_l.
          change (rsum n (fun i => A a i * mat_vec n (cov n w) (A k) i)) with (bil n (cov n w) (A a) (A k)).
          rewrite bil_sym. assert (E := Hbil a ltac:(lia) Ha). destruct (Nat.eq_dec k a); [lia|].
          rewrite Rplus_0_r in E. rewrite E. field. assumption.
        * rewrite G1 by lia. apply Hg; lia.
      + intros d Hd. destruct (Nat.eq_dec d k) as [->|Hne]; [assumption|apply Hvd; lia].
      + intros x x'. simpl. rewrite <- Rmult_assoc, Hden.
        set (mk := fun a => m a + rsum k (fun d => g d a * z x' d)).
        assert (Hz : v k k * z x' k = x' k - (dot n mk (A k) + b k)).
        { unfold z, standardized. rewrite solve_step by lia.
          replace (dot n mk (A k)) with (dot n m (A k) + rsum k (fun d => v d k * z x' d)).
          - unfold mean' at 1, z, standardized. field. assumption.
          - unfold dot, mk. rewrite (rsum_ext n (fun i => (m i + rsum k (fun d => g d i * z x' d)) * A k i)
              (fun i => m i * A k i + rsum k (fun d => (g d i * A k i) * z x' d))).
            + rewrite rsum_plus. f_equal. rewrite rsum_swap. apply rsum_ext. intros d Hd.
              rewrite rsum_scal_r. f_equal. symmetry. apply (Hg d k); lia.
            + intros i Hi. rewrite Rmult_plus_distr_r. f_equal. rewrite <- rsum_scal_r. apply rsum_ext. intros; ring. }
        assert (B := mvn_bayes n mk w (A k) (q k) (b k) (x' k)
                       (conditional_mean n mk (cov n w) (A k) (q k) (b k) (x' k)) w'
                       Hw (proj1 Hw') (Hq k ltac:(lia)) Hwc' ltac:(intros ? ?; reflexivity) x).
        rewrite Rmult_assoc, B. rewrite <- Rmult_assoc. f_equal.
        * f_equal. unfold measurement_density. fold s2. rewrite Hvk2.
          rewrite normal_density_var, normal_density_1 by assumption. rewrite <- Hz.
          replace (- (v k k * z x' k * (v k k * z x' k)) / (2 * (v k k * v k k)))
            with (- (z x' k * z x' k) / 2) by (field; assumption).
          unfold Rdiv. ring.
        * apply (mvn_density_ext n _ _ w' w' x Hw' (proj1 Hw')); [intros ? ? _ _; reflexivity|].
          intros a Ha. unfold conditional_mean, gain. fold s2. rewrite <- Hz. simpl. rewrite G2.
          rewrite (rsum_ext k (fun d => g' d a * z x' d) (fun d => g d a * z x' d)).
          2:{ intros d Hd. now rewrite G1. }
          unfold mk, gk. rewrite Hvk2. field. assumption.
  Qed.

  (** The joint density of today's and tomorrow's states is the density of tomorrow's
      states times a normal density of today's given tomorrow's. *)
  Lemma mvn_transition : exists back w, proper_root n w /\ proper_root n v /\
    forall x x',
      mvn_density n m u x * rprod n (fun a => normal_density (dot n x (A a) + b a) (q a * q a) (x' a))
      = mvn_density n mean' v x' * mvn_density n (back x') w x.
  Proof.
    destruct (transition_induction n (le_n n)) as (g & w & Hw & _ & _ & Hvd & Hden).
    exists (fun x' a => m a + rsum n (fun d => g d a * z x' d)), w.
    split; [assumption|]. split; [split; assumption|]. exact Hden.
  Qed.
End AffineTransition.
