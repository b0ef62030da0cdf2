(** The Gaussian integral: normal densities integrate to one. *)
From Coquelicot Require Import Coquelicot.
Require Import Reals Lra Lia Psatz.
From Verif Require Import SpecKalman.
Open Scope R_scope.

Definition gauss (t : R) : R := exp (- (t * t)).
Definition gauss_int (x : R) : R := RInt gauss 0 x.
Definition gauss_aux (x t : R) : R := exp (- (x * x) * (1 + t * t)) / (1 + t * t).
Definition gauss_aux_int (x : R) : R := RInt (gauss_aux x) 0 1.

Lemma one_plus_sq t : 0 < 1 + t * t.
Proof. nra. Qed.

Lemma gauss_continuous t : continuous gauss t.
Proof. apply (@ex_derive_continuous R_AbsRing R_NormedModule). unfold gauss. auto_derive. trivial. Qed.

Lemma gauss_int_derive x : is_derive gauss_int x (gauss x).
Proof.
  apply (is_derive_RInt gauss gauss_int 0); [|apply gauss_continuous].
  apply filter_forall. intros y. apply (@RInt_correct R_CompleteNormedModule).
  apply (@ex_RInt_continuous R_CompleteNormedModule). intros t _. apply gauss_continuous.
Qed.

Lemma gauss_aux_derive x t : is_derive (fun z => gauss_aux z t) x (-2 * x * exp (- (x * x) * (1 + t * t))).
Proof.
  unfold gauss_aux. assert (H := one_plus_sq t). auto_derive; [lra|]. field. lra.
Qed.

Lemma gauss_aux_continuous x t : continuous (gauss_aux x) t.
Proof.
  apply (@ex_derive_continuous R_AbsRing R_NormedModule). unfold gauss_aux. assert (H := one_plus_sq t).
  auto_derive. lra.
Qed.

Lemma gauss_aux_int_derive x :
  is_derive gauss_aux_int x (RInt (fun t => -2 * x * exp (- (x * x) * (1 + t * t))) 0 1).
Proof.
  replace (RInt (fun t => -2 * x * exp (- (x * x) * (1 + t * t))) 0 1)
    with (RInt (fun t => Derive (fun u => gauss_aux u t) x) 0 1).
  2:{ apply RInt_ext. intros t _. apply is_derive_unique, gauss_aux_derive. }
  apply (is_derive_RInt_param gauss_aux 0 1 x).
  - apply filter_forall. intros y t _. eexists. apply gauss_aux_derive.
  - intros t _. apply continuity_2d_pt_ext with (fun u v => (-2 * u) * exp (- (u * u) * (1 + v * v))).
    { intros u v. symmetry. apply is_derive_unique, gauss_aux_derive. }
    apply continuity_2d_pt_mult.
    + apply continuity_2d_pt_mult; [apply continuity_2d_pt_const|apply continuity_2d_pt_id1].
    + apply (continuity_1d_2d_pt_comp exp (fun u v => - (u * u) * (1 + v * v))).
      * apply derivable_continuous_pt, derivable_pt_exp.
      * apply continuity_2d_pt_mult.
        -- apply continuity_2d_pt_opp, continuity_2d_pt_mult; apply continuity_2d_pt_id1.
        -- apply continuity_2d_pt_plus; [apply continuity_2d_pt_const|].
           apply continuity_2d_pt_mult; apply continuity_2d_pt_id2.
  - apply filter_forall. intros y. apply (@ex_RInt_continuous R_CompleteNormedModule).
    intros t _. apply gauss_aux_continuous.
Qed.

Lemma gauss_scaled x : RInt (fun t => x * gauss (x * t)) 0 1 = gauss_int x.
Proof.
  apply is_RInt_unique. apply (is_RInt_ext (fun y => scal x (gauss (x * y + 0)))).
  { intros t _. rewrite Rplus_0_r. reflexivity. }
  apply (is_RInt_comp_lin gauss x 0 0 1). rewrite Rmult_0_r, Rplus_0_r, Rmult_1_r, Rplus_0_r.
  apply (@RInt_correct R_CompleteNormedModule).
  apply (@ex_RInt_continuous R_CompleteNormedModule). intros t _. apply gauss_continuous.
Qed.

Lemma gauss_sum_derive x : is_derive (fun x => gauss_int x * gauss_int x + gauss_aux_int x) x 0.
Proof.
  assert (A := gauss_int_derive x). assert (B := gauss_aux_int_derive x).
  replace (RInt (fun t => -2 * x * exp (- (x * x) * (1 + t * t))) 0 1)
    with (-2 * gauss x * gauss_int x) in B.
  2:{ rewrite <- gauss_scaled.
      change (-2 * gauss x * RInt (fun t => x * gauss (x * t)) 0 1)
        with (scal (-2 * gauss x) (RInt (fun t => x * gauss (x * t)) 0 1)).
      rewrite <- (@RInt_scal R_CompleteNormedModule).
      - apply RInt_ext. intros t _. unfold gauss, scal; simpl; unfold mult; simpl.
        replace (- (x * x) * (1 + t * t)) with (- (x * x) + - (x * t * (x * t))) by ring. rewrite exp_plus. ring.
      - apply (@ex_RInt_continuous R_CompleteNormedModule). intros t _.
        apply (@ex_derive_continuous R_AbsRing R_NormedModule). unfold gauss. auto_derive. trivial. }
  evar_last; [apply (is_derive_plus (fun x => gauss_int x * gauss_int x) gauss_aux_int);
    [apply (is_derive_mult gauss_int gauss_int x _ _ A A); intros; apply Rmult_comm|exact B]|].
  unfold plus, mult; simpl. ring.
Qed.

Lemma gauss_int_0 : gauss_int 0 = 0.
Proof. exact (@RInt_point R_CompleteNormedModule 0 gauss). Qed.

Lemma gauss_aux_int_0 : gauss_aux_int 0 = PI / 4.
Proof.
  unfold gauss_aux_int. apply is_RInt_unique.
  replace (PI / 4) with (minus (atan 1) (atan 0)).
  2:{ unfold minus, plus, opp; simpl. rewrite atan_1, atan_0. lra. }
  apply is_RInt_ext with (fun t => / (1 + t * t)).
  { intros t _. unfold gauss_aux. rewrite Rmult_0_l, Ropp_0, Rmult_0_l, exp_0. unfold Rdiv. now rewrite Rmult_1_l. }
  apply (is_RInt_derive atan (fun t => / (1 + t * t))).
  - intros t _. replace (t * t) with (t ^ 2) by ring. apply is_derive_Reals. apply derivable_pt_lim_atan.
  - intros t _. apply (@ex_derive_continuous R_AbsRing R_NormedModule). assert (H := one_plus_sq t). auto_derive. lra.
Qed.

Lemma gauss_sum x : 0 <= x -> gauss_int x * gauss_int x + gauss_aux_int x = PI / 4.
Proof.
  intros [H| <-].
  - rewrite <- gauss_aux_int_0. replace (gauss_aux_int 0) with (gauss_int 0 * gauss_int 0 + gauss_aux_int 0)
      by (rewrite gauss_int_0; ring).
    symmetry. apply (eq_is_derive (fun x => gauss_int x * gauss_int x + gauss_aux_int x) 0 x); [|assumption].
    intros t _. apply gauss_sum_derive.
  - rewrite gauss_int_0, gauss_aux_int_0. ring.
Qed.

Lemma gauss_aux_int_bound x : 0 <= gauss_aux_int x <= exp (- (x * x)).
Proof.
  assert (E : ex_RInt (gauss_aux x) 0 1).
  { apply (@ex_RInt_continuous R_CompleteNormedModule). intros t _. apply gauss_aux_continuous. }
  assert (P : forall t, 0 < gauss_aux x t).
  { intros t. apply Rdiv_lt_0_compat; [apply exp_pos|apply one_plus_sq]. }
  split.
  - replace 0 with (RInt (fun _ => 0) 0 1) by (rewrite RInt_const; unfold scal; simpl; unfold mult; simpl; ring).
    apply RInt_le; [lra|apply ex_RInt_const|assumption|]. intros t _. left. apply P.
  - replace (exp (- (x * x))) with (RInt (fun _ => exp (- (x * x))) 0 1)
      by (rewrite RInt_const; unfold scal; simpl; unfold mult; simpl; ring).
    apply RInt_le; [lra|assumption|apply ex_RInt_const|]. intros t _. unfold gauss_aux.
    assert (H := one_plus_sq t). apply Rmult_le_reg_r with (1 + t * t); [assumption|].
    unfold Rdiv. rewrite Rmult_assoc, Rinv_l, Rmult_1_r by lra.
    assert (exp (- (x * x) * (1 + t * t)) <= exp (- (x * x))).
    { replace (- (x * x) * (1 + t * t)) with (- (x * x) + - ((x * t) * (x * t))) by ring.
      destruct (Req_dec (x * t) 0) as [Z|Z].
      - rewrite Z. rewrite Rmult_0_l, Ropp_0, Rplus_0_r. lra.
      - left. apply exp_increasing. assert (0 < (x * t) * (x * t)) by nra. lra. }
    assert (0 < exp (- (x * x))) by apply exp_pos. nra.
Qed.

Lemma gauss_int_nonneg x : 0 <= x -> 0 <= gauss_int x.
Proof.
  intros H. unfold gauss_int. apply Rle_trans with (RInt (fun _ => 0) 0 x).
  { right. rewrite RInt_const; unfold scal; simpl; unfold mult; simpl; ring. }
  apply RInt_le; [assumption|apply ex_RInt_const| |intros; left; apply exp_pos].
  apply (@ex_RInt_continuous R_CompleteNormedModule). intros t _. apply gauss_continuous.
Qed.

Lemma gauss_int_opp x : gauss_int (- x) = - gauss_int x.
Proof.
  unfold gauss_int. apply is_RInt_unique.
  apply is_RInt_ext with (fun y => scal (-1) (opp (gauss (-1 * y + 0)))).
  { intros t _. unfold scal, opp; simpl; unfold mult; simpl. unfold gauss.
    replace ((-1 * t + 0) * (-1 * t + 0)) with (t * t) by ring. ring. }
  apply (is_RInt_comp_lin (fun y => opp (gauss y)) (-1) 0 0 (- x)).
  replace (-1 * 0 + 0) with 0 by ring. replace (-1 * - x + 0) with x by ring.
  apply (is_RInt_opp gauss). apply (@RInt_correct R_CompleteNormedModule).
  apply (@ex_RInt_continuous R_CompleteNormedModule). intros t _. apply gauss_continuous.
Qed.

Lemma gauss_int_lim_p : is_lim gauss_int p_infty (sqrt PI / 2).
Proof.
  assert (HPI := PI_RGT_0).
  assert (L : is_lim (fun x => sqrt (PI / 4 - gauss_aux_int x)) p_infty (sqrt (PI / 4))).
  { apply (filterlim_comp _ _ _ (fun x => PI / 4 - gauss_aux_int x) sqrt _ (locally (PI / 4))).
    - change (is_lim (fun x => PI / 4 - gauss_aux_int x) p_infty (PI / 4)).
      replace (Finite (PI / 4)) with (Finite (PI / 4 - 0)) by (f_equal; ring).
      apply (is_lim_minus' (fun _ => PI / 4) gauss_aux_int p_infty (PI / 4) 0); [apply is_lim_const|].
      apply (is_lim_le_le_loc (fun _ => 0) (fun x => exp (- x))).
      + exists 1. intros x Hx. destruct (gauss_aux_int_bound x) as [B1 B2]. split; [assumption|].
        apply Rle_trans with (1 := B2). left. apply exp_increasing. nra.
      + apply is_lim_const.
      + apply (is_lim_comp exp Ropp p_infty 0 m_infty); [apply is_lim_exp_m| |].
        * replace m_infty with (Rbar_opp p_infty) by reflexivity. apply (is_lim_opp (fun x => x)), is_lim_id.
        * exists 0. intros; discriminate.
    - apply continuous_sqrt. }
  replace (sqrt PI / 2) with (sqrt (PI / 4)).
  2:{ replace 4 with (2 * 2) by ring. rewrite sqrt_div_alt by lra. rewrite sqrt_square by lra. reflexivity. }
  apply (is_lim_ext_loc (fun x => sqrt (PI / 4 - gauss_aux_int x))); [|exact L].
  exists 0. intros x Hx. rewrite <- (gauss_sum x) by lra.
  replace (gauss_int x * gauss_int x + gauss_aux_int x - gauss_aux_int x) with (gauss_int x * gauss_int x) by ring.
  apply sqrt_square, gauss_int_nonneg. lra.
Qed.

Lemma gauss_int_lim_m : is_lim gauss_int m_infty (- (sqrt PI / 2)).
Proof.
  apply (is_lim_ext (fun x => - gauss_int (- x))).
  { intros x. rewrite gauss_int_opp. ring. }
  apply (is_lim_opp (fun x => gauss_int (- x)) m_infty (sqrt PI / 2)).
  apply (is_lim_comp gauss_int Ropp m_infty (sqrt PI / 2) p_infty); [apply gauss_int_lim_p| |].
  - replace p_infty with (Rbar_opp m_infty) by reflexivity. apply (is_lim_opp (fun x => x)), is_lim_id.
  - exists 0. intros; discriminate.
Qed.

(** The normal density integrates to one. *)
Lemma normal_density_integral mean var : 0 < var ->
  is_RInt_gen (normal_density mean var) (Rbar_locally m_infty) (Rbar_locally p_infty) 1.
Proof.
  intros Hv. assert (HPI := PI_RGT_0).
  set (s := sqrt (2 * var)). assert (Hs : 0 < s) by (apply sqrt_lt_R0; lra).
  assert (Hs2 : s * s = 2 * var) by (apply sqrt_sqrt; lra).
  assert (Hp : 0 < sqrt PI) by now apply sqrt_lt_R0.
  set (F := fun t => / sqrt PI * gauss_int ((t - mean) / s)).
  assert (D : forall t, is_derive F t (normal_density mean var t)).
  { intros t. unfold F.
    replace (normal_density mean var t) with (/ sqrt PI * (/ s * gauss ((t - mean) / s))).
    - apply (is_derive_scal (fun t => gauss_int ((t - mean) / s)) t (/ sqrt PI)).
      apply (is_derive_comp gauss_int (fun t => (t - mean) / s)).
      + apply gauss_int_derive.
      + auto_derive; [trivial|]. field. lra.
    - unfold normal_density, gauss.
      replace (2 * PI * var) with (PI * (s * s)) by (rewrite Hs2; ring).
      rewrite sqrt_mult by nra. rewrite (sqrt_square s) by lra. rewrite Rinv_mult, <- Rmult_assoc. f_equal.
      f_equal. rewrite <- Hs2. field. lra. }
  assert (C : forall t, continuous (normal_density mean var) t).
  { intros t. apply (@ex_derive_continuous R_AbsRing R_NormedModule). unfold normal_density. auto_derive. trivial. }
  assert (Lp : filterlim F (Rbar_locally p_infty) (locally (/ 2))).
  { replace (/ 2) with (/ sqrt PI * (sqrt PI / 2)) by (field; lra).
    apply (is_lim_scal_l (fun t => gauss_int ((t - mean) / s)) (/ sqrt PI) p_infty (sqrt PI / 2)).
    apply (is_lim_comp gauss_int (fun t => (t - mean) / s) p_infty (sqrt PI / 2) p_infty); [apply gauss_int_lim_p| |].
    - intros P [M HM]. exists (s * M + mean). intros t Ht. apply HM. 
      apply Rmult_lt_reg_r with s; [assumption|]. unfold Rdiv. rewrite Rmult_assoc, Rinv_l by lra. lra.
    - exists 0. intros; discriminate. }
  assert (Lm : filterlim F (Rbar_locally m_infty) (locally (- / 2))).
  { replace (- / 2) with (/ sqrt PI * - (sqrt PI / 2)) by (field; lra).
    apply (is_lim_scal_l (fun t => gauss_int ((t - mean) / s)) (/ sqrt PI) m_infty (- (sqrt PI / 2))).
    apply (is_lim_comp gauss_int (fun t => (t - mean) / s) m_infty (- (sqrt PI / 2)) m_infty); [apply gauss_int_lim_m| |].
    - intros P [M HM]. exists (s * M + mean). intros t Ht. apply HM. 
      apply Rmult_lt_reg_r with s; [assumption|]. unfold Rdiv. rewrite Rmult_assoc, Rinv_l by lra. lra.
    - exists 0. intros; discriminate. }
  replace 1 with (minus (/ 2) (- / 2)) by (unfold minus, plus, opp; simpl; lra).
  apply is_RInt_gen_ext with (Derive F).
  { apply filter_forall. intros ab t _. apply is_derive_unique, D. }
  apply is_RInt_gen_Derive; try assumption.
  - apply filter_forall. intros ab t _. eexists. apply D.
  - apply filter_forall. intros ab t _. apply (continuous_ext (normal_density mean var)); [|apply C].
    intros u. symmetry. apply is_derive_unique, D.
Qed.
