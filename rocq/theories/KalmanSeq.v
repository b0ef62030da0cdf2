(** Sequences of updates. *)
Require Import Reals Lra Lia Psatz Arith Bool Permutation List.
From Verif Require Import PyBase RSum Kalman SpecKalman KalmanFacts KalmanOrder.
Import ListNotations.
Open Scope R_scope.

Lemma conditional_mean_ext n x y p q h sd off z : veq n x y -> meq n p q ->
  veq n (conditional_mean n x p h sd off z) (conditional_mean n y q h sd off z).
Proof.
  intros Hx Hp a Ha. unfold conditional_mean, gain.
  rewrite (Hx a Ha), (innovation_var_ext n p q h sd Hp).
  rewrite (mat_vec_ext n p q h h a Ha Hp) by (intros ? ?; reflexivity).
  replace (dot n x h) with (dot n y h); [reflexivity|]. apply rsum_ext. intros b Hb. now rewrite Hx.
Qed.

Lemma conditional_cov_ext n p q h sd : meq n p q ->
  meq n (conditional_cov n p h sd) (conditional_cov n q h sd).
Proof.
  intros Hp a b Ha Hb. unfold conditional_cov, gain.
  rewrite (innovation_var_ext n p q h sd Hp).
  rewrite (mat_vec_ext n p q h h a Ha Hp) by (intros ? ?; reflexivity).
  rewrite (Hp a b Ha Hb). f_equal. f_equal. apply rsum_ext. intros c Hc. now rewrite (Hp c b Hc Hb).
Qed.

Lemma rsum_one n f : n = 1%nat -> rsum n f = f O.
Proof. intros ->. simpl. ring. Qed.

Section Seq.
  Variable qr : qr_function.
  Hypothesis Hqr : correct_qr qr.
  Variable nan : R.
  Variables (nm n nc : nat).
  Hypothesis Hnm : (1 <= nm)%nat.
  Variable controls : nat -> nat -> option R.
  Variable i : nat.

  Let upd := update_with qr nan nm n nc controls.
  Let same := same_state nm n i.

  Lemma same_refl s : same s s.
  Proof. split; [|reflexivity]. intros m Hm. repeat split; intros ? **; reflexivity. Qed.

  Lemma same_sym s t : same s t -> same t s.
  Proof.
    intros [H T]. split; [|congruence]. intros m Hm. destruct (H m Hm) as (A & B & C).
    repeat split; [intros a Ha; symmetry; now apply A|intros a b Ha Hb; symmetry; now apply B|congruence].
  Qed.

  Lemma same_trans s t u : same s t -> same t u -> same s u.
  Proof.
    intros [H T] [H' T']. split; [|congruence]. intros m Hm.
    destruct (H m Hm) as (A & B & C), (H' m Hm) as (A' & B' & C').
    repeat split; [intros a Ha; now rewrite A, A'|intros a b Ha Hb; now rewrite B, B'|congruence].
  Qed.

  Lemma upd_missing s ms : ms_values ms i = None -> same (upd s ms) s.
  Proof.
    intros E.
    destruct (update_missing_individual qr nan nm n nc (fs_states s) (fs_chols s) (ms_loadings ms)
                (ms_control_params ms) (ms_sd ms) (ms_values ms) controls (fs_logw s) i E)
      as (A & B & C & D & _).
    unfold upd, update_with. split; cbn [fs_states fs_chols fs_logw fs_total].
    - intros m Hm. rewrite A, B, C. repeat split; intros ? **; reflexivity.
    - rewrite D. ring.
  Qed.

  Let off ms := dot nc (fun c => to_number nan (controls i c)) (ms_control_params ms).
  Let ld (s : filter_state) ms z m :=
    ldens n (fs_states s i m) (cov n (fs_chols s i m)) (ms_loadings ms) (ms_sd ms) (off ms) z.
  Let contribution s ms z :=
    if (2 <=? nm)%nat then logsumexp nm (fun m => ld s ms z m + fs_logw s i m) else ld s ms z O.

  Section Observed.
    Variables (s : filter_state) (ms : measurement) (z : R).
    Hypothesis Hz : ms_values ms i = Some z.
    Hypothesis Hsd : ms_sd ms <> 0.

    Lemma upd_states m :
      veq n (fs_states (upd s ms) i m)
        (conditional_mean n (fs_states s i m) (cov n (fs_chols s i m)) (ms_loadings ms) (ms_sd ms)
           (off ms) z).
    Proof.
      intros a Ha. apply up_states_ok; try assumption.
      apply Rgt_not_eq, innovation_var_pos; assumption.
    Qed.

    Lemma upd_cov m :
      meq n (cov n (fs_chols (upd s ms) i m))
        (conditional_cov n (cov n (fs_chols s i m)) (ms_loadings ms) (ms_sd ms)).
    Proof.
      apply up_cov_ok with z; try assumption. apply Rgt_not_eq, innovation_var_pos; assumption.
    Qed.

    Lemma upd_total : fs_total (upd s ms) i = fs_total s i + contribution s ms z.
    Proof. unfold upd, update_with. cbn [fs_total]. now rewrite up_loglikes_ok with (z := z). Qed.

    Lemma upd_logw m :
      fs_logw (upd s ms) i m =
      if (2 <=? nm)%nat then ld s ms z m + fs_logw s i m - contribution s ms z else fs_logw s i m.
    Proof.
      unfold upd, update_with. cbn [fs_logw]. rewrite up_logw_ok with (z := z) by assumption.
      rewrite up_loglikes_ok with (z := z) by assumption. unfold contribution.
      destruct (2 <=? nm)%nat; reflexivity.
    Qed.
  End Observed.

  Lemma contribution_ext s t ms z : same s t -> contribution s ms z = contribution t ms z.
  Proof.
    intros [H _]. unfold contribution.
    assert (L : forall m, (m < nm)%nat -> ld s ms z m = ld t ms z m).
    { intros m Hm. destruct (H m Hm) as (A & B & _). apply ldens_ext; assumption. }
    destruct (2 <=? nm)%nat.
    - apply logsumexp_ext. intros m Hm. rewrite L by assumption. now destruct (H m Hm) as (_ & _ & ->).
    - apply L. lia.
  Qed.

  Lemma upd_same s t ms : ms_sd ms <> 0 -> same s t -> same (upd s ms) (upd t ms).
  Proof.
    intros Hsd H. destruct (ms_values ms i) as [z|] eqn:E.
    2:{ apply same_trans with s; [now apply upd_missing|]. apply same_trans with t; [assumption|].
        apply same_sym. now apply upd_missing. }
    split.
    - intros m Hm. destruct (proj1 H m Hm) as (A & B & C). split; [|split].
      + intros a Ha. rewrite (upd_states s ms z E Hsd m a Ha), (upd_states t ms z E Hsd m a Ha).
        apply conditional_mean_ext; assumption.
      + intros a b Ha Hb. rewrite (upd_cov s ms z E Hsd m a b Ha Hb), (upd_cov t ms z E Hsd m a b Ha Hb).
        apply conditional_cov_ext; assumption.
      + rewrite (upd_logw s ms z E), (upd_logw t ms z E), (contribution_ext s t ms z H), C.
        destruct (2 <=? nm)%nat; [|reflexivity]. f_equal. f_equal. apply ldens_ext; assumption.
    - rewrite (upd_total s ms z E), (upd_total t ms z E), (contribution_ext s t ms z H).
      now rewrite (proj2 H).
  Qed.

  Lemma logsumexp_shift k f c : (1 <= k)%nat -> logsumexp k (fun m => f m - c) = logsumexp k f - c.
  Proof.
    intros Hk. rewrite !logsumexp_ln by assumption.
    replace (rsum k (fun m => exp (f m - c))) with (rsum k (fun m => exp (f m)) * exp (- c)).
    - rewrite ln_mult; [rewrite ln_exp; ring| |apply exp_pos].
      apply rsum_pos; [assumption|]. intros; apply exp_pos.
    - rewrite <- rsum_scal_r. apply rsum_ext. intros m Hm. rewrite <- exp_plus. f_equal.
  Qed.

  Lemma upd_swap s a b : ms_sd a <> 0 -> ms_sd b <> 0 -> same (upd (upd s a) b) (upd (upd s b) a).
  Proof.
    intros Ha Hb.
    destruct (ms_values a i) as [za|] eqn:Ea.
    2:{ apply same_trans with (upd s b).
        - apply upd_same; [assumption|]. now apply upd_missing.
        - apply same_sym. now apply upd_missing. }
    destruct (ms_values b i) as [zb|] eqn:Eb.
    2:{ apply same_trans with (upd s a).
        - now apply upd_missing.
        - apply upd_same; [assumption|]. apply same_sym. now apply upd_missing. }
    assert (L : forall m,
      ld s a za m + ld (upd s a) b zb m = ld s b zb m + ld (upd s b) a za m).
    { intros m. unfold ld.
      rewrite (ldens_ext n _ _ _ _ (ms_loadings b) (ms_sd b) (off b) zb
                 (upd_states s a za Ea Ha m) (upd_cov s a za Ea Ha m)).
      rewrite (ldens_ext n _ _ _ _ (ms_loadings a) (ms_sd a) (off a) za
                 (upd_states s b zb Eb Hb m) (upd_cov s b zb Eb Hb m)).
      apply comm_ldens.
      - apply cov_symmetric.
      - now apply innovation_var_pos.
      - now apply innovation_var_pos.
      - now apply joint_var_pos. }
    assert (Htwo : forall s' x y zx zy,
      ms_values x i = Some zx -> (2 <= nm)%nat ->
      contribution s' x zx + contribution (upd s' x) y zy
      = logsumexp nm (fun m => ld s' x zx m + ld (upd s' x) y zy m + fs_logw s' i m)).
    { intros s' x y zx zy Hx H2. unfold contribution at 2.
      assert (Q : (2 <=? nm)%nat = true) by (apply Nat.leb_le; assumption). rewrite Q.
      rewrite (logsumexp_ext nm _
        (fun m => ld s' x zx m + ld (upd s' x) y zy m + fs_logw s' i m - contribution s' x zx)).
      - rewrite logsumexp_shift by assumption. ring.
      - intros m Hm. rewrite (upd_logw s' x zx Hx m), Q. ring. }
    assert (Hsum : contribution s a za + contribution (upd s a) b zb
                 = contribution s b zb + contribution (upd s b) a za).
    { destruct (le_lt_dec 2 nm) as [H2|H1].
      - rewrite (Htwo s a b za zb Ea H2), (Htwo s b a zb za Eb H2). apply logsumexp_ext.
        intros m Hm. now rewrite L.
      - unfold contribution. assert (Q : (2 <=? nm)%nat = false) by (apply Nat.leb_gt; assumption).
        rewrite Q. apply L. }
    split.
    - intros m Hm. split; [|split].
      + intros k Hk.
        rewrite (upd_states (upd s a) b zb Eb Hb m k Hk), (upd_states (upd s b) a za Ea Ha m k Hk).
        rewrite (conditional_mean_ext n _ _ _ _ (ms_loadings b) (ms_sd b) (off b) zb
                   (upd_states s a za Ea Ha m) (upd_cov s a za Ea Ha m) k Hk).
        rewrite (conditional_mean_ext n _ _ _ _ (ms_loadings a) (ms_sd a) (off a) za
                   (upd_states s b zb Eb Hb m) (upd_cov s b zb Eb Hb m) k Hk).
        apply comm_mean;
          [apply cov_symmetric|now apply innovation_var_pos|now apply innovation_var_pos
          |now apply joint_var_pos|assumption].
      + intros k l Hk Hl.
        rewrite (upd_cov (upd s a) b zb Eb Hb m k l Hk Hl), (upd_cov (upd s b) a za Ea Ha m k l Hk Hl).
        rewrite (conditional_cov_ext n _ _ (ms_loadings b) (ms_sd b) (upd_cov s a za Ea Ha m) k l Hk Hl).
        rewrite (conditional_cov_ext n _ _ (ms_loadings a) (ms_sd a) (upd_cov s b zb Eb Hb m) k l Hk Hl).
        apply comm_cov;
          [apply cov_symmetric|now apply innovation_var_pos|now apply innovation_var_pos
          |now apply joint_var_pos|assumption|assumption].
      + rewrite (upd_logw (upd s a) b zb Eb m), (upd_logw (upd s b) a za Ea m),
                (upd_logw s a za Ea m), (upd_logw s b zb Eb m).
        destruct (2 <=? nm)%nat; [|reflexivity]. assert (Lm := L m). lra.
    - rewrite (upd_total (upd s a) b zb Eb), (upd_total (upd s b) a za Ea),
              (upd_total s a za Ea), (upd_total s b zb Eb). lra.
  Qed.

  Let upds := update_all qr nan nm n nc controls.

  Lemma upds_same l s t : Forall (fun ms => ms_sd ms <> 0) l -> same s t -> same (upds s l) (upds t l).
  Proof.
    intros H. revert s t. induction H as [|ms l Hms _ IH]; intros s t Hst; [assumption|].
    apply IH. apply upd_same; assumption.
  Qed.

  Lemma upds_permutation l l' : Permutation l l' -> Forall (fun ms => ms_sd ms <> 0) l ->
    forall s, same (upds s l) (upds s l').
  Proof.
    induction 1 as [|x l l' P IH|x y l|l1 l2 l3 P1 IH1 P2 IH2]; intros F s.
    - apply same_refl.
    - apply Forall_cons_iff in F as [Fx F]. apply (IH F).
    - apply Forall_cons_iff in F as [Fy F]. apply Forall_cons_iff in F as [Fx F].
      change (upds s (y :: x :: l)) with (upds (upd (upd s y) x) l).
      change (upds s (x :: y :: l)) with (upds (upd (upd s x) y) l).
      apply upds_same; [assumption|]. apply upd_swap; assumption.
    - apply same_trans with (upds s l2); [now apply IH1|]. apply IH2.
      rewrite Forall_forall in F |- *. intros ms Hms. apply F. eapply Permutation_in; [|exact Hms].
      now apply Permutation_sym.
  Qed.

  (** ** Weights *)
  Definition weight_sum (s : filter_state) : R := rsum nm (fun m => exp (fs_logw s i m)).

  Lemma contribution_ln s ms z : ms_sd ms <> 0 -> weight_sum s = 1 ->
    contribution s ms z
    = ln (rsum nm (fun m => exp (fs_logw s i m) *
            measurement_density n (fs_states s i m) (cov n (fs_chols s i m)) (ms_loadings ms)
              (ms_sd ms) (off ms) z)).
  Proof.
    intros Hsd Hw. unfold contribution. destruct (2 <=? nm)%nat eqn:Q.
    - rewrite logsumexp_ln by assumption. f_equal. apply rsum_ext. intros m Hm.
      rewrite exp_plus. unfold ld. rewrite ldens_exp by (now apply innovation_var_pos). ring.
    - apply Nat.leb_gt in Q. assert (nm = 1%nat) by lia. unfold weight_sum in Hw.
      rewrite (rsum_one nm _ H) in Hw. rewrite (rsum_one nm _ H), Hw, Rmult_1_l.
      unfold ld. apply ldens_ln. now apply innovation_var_pos.
  Qed.

  Lemma mixture_pos s ms z : ms_sd ms <> 0 ->
    0 < rsum nm (fun m => exp (fs_logw s i m) *
            measurement_density n (fs_states s i m) (cov n (fs_chols s i m)) (ms_loadings ms)
              (ms_sd ms) (off ms) z).
  Proof.
    intros Hsd. apply rsum_pos; [assumption|]. intros m Hm. apply Rmult_lt_0_compat; [apply exp_pos|].
    apply normal_density_pos. now apply innovation_var_pos.
  Qed.

  Lemma new_weight s ms z m : ms_values ms i = Some z -> ms_sd ms <> 0 -> weight_sum s = 1 ->
    (m < nm)%nat ->
    exp (fs_logw (upd s ms) i m)
    = exp (fs_logw s i m)
      * measurement_density n (fs_states s i m) (cov n (fs_chols s i m)) (ms_loadings ms)
          (ms_sd ms) (off ms) z
      / rsum nm (fun m => exp (fs_logw s i m) *
            measurement_density n (fs_states s i m) (cov n (fs_chols s i m)) (ms_loadings ms)
              (ms_sd ms) (off ms) z).
  Proof.
    intros Hz Hsd Hw Hm. rewrite (upd_logw s ms z Hz m).
    assert (P := mixture_pos s ms z Hsd). rewrite (contribution_ln s ms z Hsd Hw).
    destruct (2 <=? nm)%nat eqn:Q.
    - unfold Rminus. rewrite !exp_plus, exp_Ropp, exp_ln by exact P.
      unfold ld. rewrite ldens_exp by (now apply innovation_var_pos). unfold Rdiv. ring.
    - apply Nat.leb_gt in Q. assert (nm = 1%nat) by lia. unfold weight_sum in Hw.
      assert (m = O) by lia. subst m. rewrite (rsum_one nm _ H) in Hw.
      rewrite (rsum_one nm _ H) in P |- *. rewrite Hw in P |- *. rewrite Rmult_1_l in P |- *. field. lra.
  Qed.

  Lemma weight_sum_upd s ms : ms_sd ms <> 0 -> weight_sum s = 1 -> weight_sum (upd s ms) = 1.
  Proof.
    intros Hsd Hw. destruct (ms_values ms i) as [z|] eqn:E.
    - unfold weight_sum. rewrite (rsum_ext nm _ _ (fun m Hm => new_weight s ms z m E Hsd Hw Hm)).
      unfold Rdiv. rewrite rsum_scal_r. apply Rinv_r. apply Rgt_not_eq. now apply mixture_pos.
    - unfold weight_sum in *. rewrite <- Hw. apply rsum_ext. intros m Hm.
      destruct (upd_missing s ms E) as [H _]. now destruct (H m Hm) as (_ & _ & ->).
  Qed.

  Lemma weight_sum_upds l s : Forall (fun ms => ms_sd ms <> 0) l -> weight_sum s = 1 ->
    weight_sum (upds s l) = 1.
  Proof.
    intros H. revert s. induction H as [|ms l Hms _ IH]; intros s Hw; [assumption|].
    apply IH. now apply weight_sum_upd.
  Qed.
End Seq.
