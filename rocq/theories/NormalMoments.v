(** First and second moments of the normal distribution, and inequalities of integrals. *)
From Coquelicot Require Import Coquelicot.
Require Import Reals Arith List Lia Lra.
From Verif Require Import RSum Kalman SpecKalman GaussIntegral SpecStateSpace StateSpaceFacts.
Import ListNotations.
Open Scope R_scope.

Lemma line_integral_nonneg f l : (forall v, 0 <= f v) -> line_integral f l -> 0 <= l.
Proof.
  intros Hf H. eapply Rle_trans; [apply (norm_ge_0 (l : R_NormedModule))|].
  refine (RInt_gen_norm (V := R_CompleteNormedModule) f f l l _ _ H H).
  - apply (Filter_prod _ _ _ (fun a => a < 0) (fun b => 0 < b)); [exists 0; auto|exists 0; auto|]. intros a b Ha Hb. cbn. lra.
  - apply filter_forall. intros ab v _. unfold norm; simpl. unfold abs; simpl. rewrite Rabs_pos_eq by apply Hf. lra.
Qed.

Lemma line_integral_le f g k l : (forall v, f v <= g v) -> line_integral f k -> line_integral g l -> k <= l.
Proof.
  intros Hfg Hf Hg.
  assert (D : line_integral (fun v => g v + -1 * f v) (l + -1 * k)) by (apply line_integral_plus; [exact Hg|apply line_integral_scal, Hf]).
  apply line_integral_nonneg in D; [lra|]. intros v. specialize (Hfg v). lra.
Qed.

Lemma integrates_le es : forall f g k l, (forall x, f x <= g x) -> integrates es f k -> integrates es g l -> forall x, k x <= l x.
Proof.
  induction es as [|[t a] es IH]; intros f g k l Hfg Hf Hg.
  - intros x. rewrite <- Hf, <- Hg. apply Hfg.
  - destruct Hf as (f' & A & B), Hg as (g' & A' & B'). apply (IH f' g' k l); [|exact B|exact B'].
    intros x. apply (line_integral_le (fun v => f (set_entry x t a v)) (fun v => g (set_entry x t a v))); [|apply A|apply A'].
    intros v. apply Hfg.
Qed.

(** The integral of a derivative of a function that vanishes at infinity. *)
Lemma vanishing_integral (F f : R -> R) c : (forall t, is_derive F t (f t)) -> (forall t, continuous f t) ->
  (forall t, t <> 0 -> Rabs (F t) <= c / Rabs t) -> line_integral f 0.
Proof.
  intros D C B.
  assert (Small : forall eps : posreal, forall t, c / eps + 1 < Rabs t -> 1 < Rabs t -> Rabs (F t) < eps).
  { intros eps t H1 H2. assert (He := cond_pos eps). eapply Rle_lt_trans; [apply B; intros ->; rewrite Rabs_R0 in H2; lra|].
    apply (Rmult_lt_reg_r (Rabs t)); [lra|]. unfold Rdiv. rewrite Rmult_assoc, Rinv_l by lra. rewrite Rmult_1_r.
    assert (c = c / eps * eps) by (field; lra). nra. }
  assert (Lp : filterlim F (Rbar_locally p_infty) (locally 0)).
  { intros P [eps HP]. exists (Rmax (c / eps + 1) 1). intros t Ht. apply HP.
    assert (c / eps + 1 < t /\ 1 < t) as [T1 T2].
    { split; eapply Rle_lt_trans; [apply Rmax_l|exact Ht|apply Rmax_r|exact Ht]. }
    unfold ball; simpl. unfold AbsRing_ball, abs, minus, plus, opp; simpl. rewrite Ropp_0, Rplus_0_r.
    apply Small; rewrite Rabs_pos_eq by lra; lra. }
  assert (Lm : filterlim F (Rbar_locally m_infty) (locally 0)).
  { intros P [eps HP]. exists (- Rmax (c / eps + 1) 1). intros t Ht. apply HP.
    assert (c / eps + 1 < - t /\ 1 < - t) as [T1 T2].
    { pose proof (Rmax_l (c / eps + 1) 1). pose proof (Rmax_r (c / eps + 1) 1). split; lra. }
    unfold ball; simpl. unfold AbsRing_ball, abs, minus, plus, opp; simpl. rewrite Ropp_0, Rplus_0_r.
    apply Small; rewrite Rabs_left by lra; lra. }
  unfold line_integral. replace 0 with (minus (0 : R) 0) by (unfold minus, plus, opp; simpl; lra).
  apply is_RInt_gen_ext with (Derive F).
  { apply filter_forall. intros ab t _. apply is_derive_unique, D. }
  apply is_RInt_gen_Derive; try assumption.
  - apply filter_forall. intros ab t _. eexists. apply D.
  - apply filter_forall. intros ab t _. apply (continuous_ext f); [|apply C].
    intros u. symmetry. apply is_derive_unique, D.
Qed.

Section Moments.
  Variable s : R.
  Hypothesis Hs : 0 < s.

  Let c := / sqrt (2 * PI * s).
  Let Hc : 0 < c.
  Proof. apply Rinv_0_lt_compat, sqrt_lt_R0. pose proof PI_RGT_0. nra. Qed.

  (** The density decreases faster than 1 / t^2. *)
  Lemma normal_tail t : t <> 0 -> t * t * normal_density 0 s t <= 2 * s * c.
  Proof.
    intros Ht. unfold normal_density. fold c. rewrite Rminus_0_r.
    assert (Ht2 : 0 < t * t) by nra.
    assert (E : exp (- (t * t) / (2 * s)) * (t * t / (2 * s)) <= 1).
    { replace (- (t * t) / (2 * s)) with (- (t * t / (2 * s))) by (field; lra). rewrite exp_Ropp.
      assert (U : 0 < t * t / (2 * s)) by (apply Rdiv_lt_0_compat; lra).
      pose proof (exp_ineq1 _ (Rgt_not_eq _ _ U)) as X. apply (Rmult_le_reg_l (exp (t * t / (2 * s)))); [apply exp_pos|].
      rewrite <- Rmult_assoc, Rinv_r by (apply Rgt_not_eq, exp_pos). lra. }
    replace (t * t * (c * exp (- (t * t) / (2 * s)))) with (2 * s * c * (exp (- (t * t) / (2 * s)) * (t * t / (2 * s)))) by (field; lra).
    rewrite <- (Rmult_1_r (2 * s * c)) at 2. apply Rmult_le_compat_l; [|exact E]. apply Rlt_le. repeat apply Rmult_lt_0_compat; lra.
  Qed.

  Lemma normal_derive (t : R) : is_derive (normal_density 0 s) t (- (t / s) * normal_density 0 s t).
  Proof. unfold normal_density. auto_derive; [trivial|]. fold c. change (t + - 0) with (t - 0). change (- ((t - 0) * (t - 0)) * / (2 * s)) with (- ((t - 0) * (t - 0)) / (2 * s)).
    generalize (exp (- ((t - 0) * (t - 0)) / (2 * s))). intros e. clearbody c. field. lra.
  Qed.

  Lemma normal_pos t : 0 < normal_density 0 s t.
  Proof. unfold normal_density. fold c. apply Rmult_lt_0_compat; [exact Hc|apply exp_pos]. Qed.

  Lemma first_moment : line_integral (fun v => v * normal_density 0 s v) 0.
  Proof.
    apply (vanishing_integral (fun t => - s * normal_density 0 s t) _ (s * (2 * s * c + c))).
    - intros t. replace (t * normal_density 0 s t) with (- s * (- (t / s) * normal_density 0 s t)) by (field; lra).
      apply (is_derive_scal (normal_density 0 s) t (- s)). apply normal_derive.
    - intros t. apply (@ex_derive_continuous R_AbsRing R_NormedModule). unfold normal_density. auto_derive. trivial.
    - intros t Ht. assert (A : 0 < Rabs t) by now apply Rabs_pos_lt. pose proof (normal_pos t) as P. pose proof (normal_tail t Ht) as T.
      rewrite Rabs_mult, Rabs_Ropp, (Rabs_pos_eq s), (Rabs_pos_eq (normal_density 0 s t)) by lra.
      unfold Rdiv. rewrite Rmult_assoc. apply Rmult_le_compat_l; [lra|]. apply (Rmult_le_reg_r (Rabs t)); [exact A|].
      rewrite Rmult_assoc, Rinv_l, Rmult_1_r by lra.
      assert (U : normal_density 0 s t <= c).
      { unfold normal_density. fold c. rewrite <- (Rmult_1_r c) at 2. apply Rmult_le_compat_l; [lra|]. rewrite <- exp_0.
        destruct (Req_dec (t - 0) 0) as [->|N]; [right; f_equal; field; lra|]. left. apply exp_increasing.
        assert (0 < (t - 0) * (t - 0) / (2 * s)) by (apply Rdiv_lt_0_compat; nra).
        replace (- ((t - 0) * (t - 0)) / (2 * s)) with (- ((t - 0) * (t - 0) / (2 * s))) by (field; lra). lra. }
      assert (V : Rabs t <= 1 + t * t) by (unfold Rabs; destruct (Rcase_abs t); nra). nra.
  Qed.

  Lemma second_moment : line_integral (fun v => v * v * normal_density 0 s v) s.
  Proof.
    assert (V : line_integral (fun v => v * v * normal_density 0 s v + - s * normal_density 0 s v) 0).
    { apply (vanishing_integral (fun t => - s * (t * normal_density 0 s t)) _ (s * (2 * s * c))).
      - intros t. replace (t * t * normal_density 0 s t + - s * normal_density 0 s t)
          with (- s * (1 * normal_density 0 s t + t * (- (t / s) * normal_density 0 s t))) by (field; lra).
        apply (is_derive_scal (fun t => t * normal_density 0 s t) t (- s)).
        apply (is_derive_mult (fun t : R => t) (normal_density 0 s) t 1); [apply @is_derive_id|apply normal_derive|intros; apply Rmult_comm].
      - intros t. apply (@ex_derive_continuous R_AbsRing R_NormedModule). unfold normal_density. auto_derive. trivial.
      - intros t Ht. assert (A : 0 < Rabs t) by now apply Rabs_pos_lt. pose proof (normal_pos t) as P. pose proof (normal_tail t Ht) as T.
        rewrite !Rabs_mult, Rabs_Ropp, (Rabs_pos_eq s), (Rabs_pos_eq (normal_density 0 s t)) by lra.
        unfold Rdiv. rewrite Rmult_assoc. apply Rmult_le_compat_l; [lra|]. apply (Rmult_le_reg_r (Rabs t)); [exact A|].
        rewrite (Rmult_assoc _ (/ Rabs t)), Rinv_l, Rmult_1_r by lra.
        replace (Rabs t * normal_density 0 s t * Rabs t) with (Rabs t * Rabs t * normal_density 0 s t) by ring.
        rewrite <- Rabs_mult, (Rabs_pos_eq (t * t)) by nra. exact T. }
    pose proof (line_integral_plus _ _ _ _ V (line_integral_scal _ s 1 (normal_density_integral 0 s Hs))) as W.
    rewrite Rplus_0_l, Rmult_1_r in W. refine (line_integral_ext _ _ _ _ W). intros v. cbv beta. ring.
  Qed.
End Moments.
