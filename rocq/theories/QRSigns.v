(** Triangular factors of the same covariance differ by the signs of their rows, and
    the filter does not notice these signs. *)
Require Import Reals Lra Lia Psatz Arith Bool String List.
From Verif Require Import PyBase ListFacts RSum Kalman SpecKalman KalmanFacts KalmanOrder KalmanSeq PredictFacts
  ModelSpec ProcessModel CheckModel SpecModel ParamsIndex ParseParams ProcessData Likelihood SpecLikelihood.
Import ListNotations.
Open Scope R_scope.

(** ** Nonsingular factors *)

Definition nonsingular (n : nat) (u : mat) : Prop :=
  forall v, (forall a, (a < n)%nat -> dot n (u a) v = 0) -> forall b, (b < n)%nat -> v b = 0.

Definition up_to_signs (n : nat) (u u' : mat) : Prop :=
  exists d : vec, (forall a, (a < n)%nat -> d a = 1 \/ d a = -1) /\
    forall a b, (a < n)%nat -> (b < n)%nat -> u' a b = d a * u a b.

Lemma quad_zero n u v : quad n (cov n u) v = 0 <-> forall a, (a < n)%nat -> dot n (u a) v = 0.
Proof.
  rewrite quad_bil, bil_cov. split.
  - intros H. exact (rsum_sq_zero n (fun a => dot n (u a) v) H).
  - intros H. apply rsum_zero. intros a Ha. rewrite (H a Ha). ring.
Qed.

Lemma nonsingular_quad n u :
  nonsingular n u <-> forall v, quad n (cov n u) v = 0 -> forall b, (b < n)%nat -> v b = 0.
Proof.
  split; intros H v Hv; apply H.
  - now apply quad_zero.
  - now apply quad_zero.
Qed.

Lemma nonsingular_cov n u u' : meq n (cov n u) (cov n u') -> nonsingular n u -> nonsingular n u'.
Proof.
  intros E H. apply nonsingular_quad. intros v Hv. apply (proj1 (nonsingular_quad n u) H v).
  now rewrite (quad_ext n _ _ v E).
Qed.

Lemma signs_refl n u : up_to_signs n u u.
Proof. exists (fun _ => 1). split; [now left|intros; ring]. Qed.

Lemma signs_cov n u u' : up_to_signs n u u' -> meq n (cov n u) (cov n u').
Proof.
  intros (d & Hd & E) a b Ha Hb. apply rsum_ext. intros c Hc. rewrite !E by assumption.
  destruct (Hd c Hc) as [-> | ->]; ring.
Qed.

(** ** Triangular matrices *)

Definition sub (u : mat) : mat := fun a b => u (S a) (S b).

Lemma upper_sub n u : upper_triangular (S n) u -> upper_triangular n (sub u).
Proof. intros T a b Ha Hb Hlt. apply T; lia. Qed.

Lemma corner_nonzero n u : upper_triangular (S n) u -> nonsingular (S n) u -> u O O <> 0.
Proof.
  intros T H E. assert (H1 : (fun b => if Nat.eq_dec b O then 1 else 0) O = 0).
  { apply (H (fun b => if Nat.eq_dec b O then 1 else 0)); [|lia]. intros a Ha. unfold dot. rewrite rsum_S_l.
    rewrite rsum_zero; [|intros b Hb; destruct (Nat.eq_dec (S b) O); [lia|ring]].
    destruct (Nat.eq_dec 0 0); [|lia]. destruct a as [|a]; [rewrite E; ring|]. rewrite T by lia. ring. }
  cbv beta in H1. destruct (Nat.eq_dec 0 0); [lra|lia].
Qed.

Lemma sub_nonsingular n u : upper_triangular (S n) u -> nonsingular (S n) u -> nonsingular n (sub u).
Proof.
  intros T H v Hv b Hb. pose proof (corner_nonzero n u T H) as Hc.
  set (w := fun b => match b with O => - (dot n (fun b => u O (S b)) v) / u O O | S b => v b end).
  change (v b) with (w (S b)). apply H; [|lia]. intros a Ha. unfold dot. rewrite rsum_S_l. unfold w.
  destruct a as [|a].
  - change (rsum n (fun i => u O (S i) * v i)) with (dot n (fun b => u O (S b)) v). field. exact Hc.
  - rewrite T by lia. rewrite Rmult_0_l, Rplus_0_l. apply Hv. lia.
Qed.

Lemma diagonal_nonsingular n u : upper_triangular n u -> (forall a, (a < n)%nat -> u a a <> 0) -> nonsingular n u.
Proof.
  intros T D v Hv.
  assert (G : forall k b, (b < n)%nat -> (n <= b + k)%nat -> v b = 0).
  { induction k as [|k IH]; intros b Hb Hk; [lia|].
    pose proof (Hv b Hb) as E. unfold dot in E. rewrite (rsum_single n b) in E; [|exact Hb|].
    - apply Rmult_integral in E as [E|E]; [|exact E]. now apply D in E.
    - intros c Hc Hne. destruct (Nat.lt_ge_cases c b) as [L|L]; [rewrite T by assumption; ring|].
      rewrite (IH c) by lia. ring. }
  intros b Hb. apply (G n b Hb). lia.
Qed.

Theorem triangular_unique : forall n u u', upper_triangular n u -> upper_triangular n u' ->
  nonsingular n u -> meq n (cov n u) (cov n u') -> up_to_signs n u u'.
Proof.
  induction n as [|n IH]; intros u u' T T' H E.
  { exists (fun _ => 1). split; intros; lia. }
  pose proof (corner_nonzero n u T H) as Hc.
  assert (G0 : forall b, (b < S n)%nat -> u O O * u O b = u' O O * u' O b).
  { intros b Hb. pose proof (E O b ltac:(lia) Hb) as G. unfold cov in G. rewrite !rsum_S_l in G.
    rewrite !rsum_zero in G; [lra| |]; intros c Hc0; [rewrite T' by lia|rewrite T by lia]; ring. }
  assert (Hc' : u' O O <> 0) by (intros Z; pose proof (G0 O ltac:(lia)) as G; rewrite Z in G; nra).
  assert (Hd : u' O O / u O O = 1 \/ u' O O / u O O = -1).
  { pose proof (G0 O ltac:(lia)) as G.
    assert (Q : (u' O O - u O O) * (u' O O + u O O) = 0) by nra.
    apply Rmult_integral in Q as [Q|Q]; [left|right].
    - replace (u' O O) with (u O O) by lra. now field.
    - replace (u' O O) with (- u O O) by lra. now field. }
  assert (Erow : forall b, (b < S n)%nat -> u' O b = u' O O / u O O * u O b).
  { intros b Hb. pose proof (G0 b Hb) as G. pose proof (G0 O ltac:(lia)) as G1.
    apply (Rmult_eq_reg_l (u' O O)); [|exact Hc']. rewrite <- G.
    replace (u' O O * (u' O O / u O O * u O b)) with ((u' O O * u' O O) / u O O * u O b) by (field; exact Hc).
    rewrite <- G1. field. exact Hc. }
  destruct (IH (sub u) (sub u')) as (d & D & Es).
  - now apply upper_sub.
  - now apply upper_sub.
  - now apply sub_nonsingular.
  - intros a b Ha Hb. pose proof (E (S a) (S b) ltac:(lia) ltac:(lia)) as G. unfold cov in G. rewrite !rsum_S_l in G.
    unfold cov, sub. rewrite !(Erow (S a)), !(Erow (S b)) in G by lia.
    assert (Q : u' O O / u O O * (u' O O / u O O) = 1) by (destruct Hd as [-> | ->]; ring).
    replace (u' O O / u O O * u O (S a) * (u' O O / u O O * u O (S b)))
      with (u' O O / u O O * (u' O O / u O O) * (u O (S a) * u O (S b))) in G by ring.
    rewrite Q in G. lra.
  - exists (fun a => match a with O => u' O O / u O O | S a => d a end). split.
    + intros [|a] Ha; [exact Hd|apply D; lia].
    + intros [|a] [|b] Ha Hb; [apply Erow; lia|apply Erow; lia| |apply (Es a b); lia].
      rewrite T' by lia. rewrite T by lia. ring.
Qed.

(** ** One update *)

Lemma update_matrix_nonsingular n u h sd r : sd <> 0 -> nonsingular n u ->
  is_qr (S n) (S n) (update_matrix sd (fun a => dot n (u a) h) u) r -> nonsingular (S n) r.
Proof.
  intros Hsd Hu Hr.
  apply (nonsingular_cov (S n) (update_matrix sd (fun a => dot n (u a) h) u)).
  { intros a b Ha Hb. symmetry. exact (qr_gram _ _ _ _ Hr a b Ha Hb). }
  intros v Hv.
  assert (V0 : v O = 0).
  { pose proof (Hv O ltac:(lia)) as G. unfold dot in G. rewrite rsum_S_l in G. cbn [update_matrix] in G.
    rewrite rsum_zero in G by (intros; ring). rewrite Rplus_0_r in G. apply Rmult_integral in G as [G|G]; [contradiction|exact G]. }
  intros [|b] Hb; [exact V0|]. apply (Hu (fun b => v (S b))); [|lia]. intros a Ha.
  pose proof (Hv (S a) ltac:(lia)) as G. unfold dot at 1 in G. rewrite rsum_S_l in G. cbn [update_matrix] in G.
  rewrite V0, Rmult_0_r, Rplus_0_l in G. exact G.
Qed.

(** The two beliefs about individual [i] are the same distribution, described by factors
    that differ by signs. *)
Definition signed (nm n i : nat) (st st' : nat -> nat -> vec) (ch ch' : nat -> nat -> mat) : Prop :=
  forall m, (m < nm)%nat ->
    veq n (st i m) (st' i m) /\ nonsingular n (ch i m) /\ up_to_signs n (ch i m) (ch' i m).

Section Steps.
  Variables qr qr' : qr_function.
  Hypothesis Hqr : correct_qr qr.
  Hypothesis Hqr' : correct_qr qr'.
  Variable nan : R.
  Variables (nm n no nc i : nat).

  Section Update.
    Variables (st st' : nat -> nat -> vec) (ch ch' : nat -> nat -> mat) (h cp : vec) (sd : R)
      (meas : nat -> option R) (controls : nat -> nat -> option R) (lw lw' : nat -> vec).
    Hypothesis Hsd : sd <> 0.
    Hypothesis Hnm : (1 <= nm)%nat.
    Hypothesis Hs : signed nm n i st st' ch ch'.
    Hypothesis Hw : forall m, (m < nm)%nat -> lw i m = lw' i m.
    Let up := kalman_update qr nan nm n nc st ch h cp sd meas controls lw.
    Let up' := kalman_update qr' nan nm n nc st' ch' h cp sd meas controls lw'.

    Lemma update_nonsingular m : (m < nm)%nat -> nonsingular n (up_chols up i m).
    Proof.
      intros Hm. destruct (Hs m Hm) as (_ & Hn & _). destruct (meas i) as [z|] eqn:Ez.
      - pose proof (Hqr (S n) (S n) (update_matrix sd (fun a => dot n (ch i m a) h) (ch i m)) (le_n _)) as Q.
        pose proof (update_matrix_nonsingular n (ch i m) h sd _ Hsd Hn Q) as N.
        pose proof (sub_nonsingular n _ (proj1 Q) N) as N'.
        unfold up, kalman_update, isfinite. cbn -[Nat.leb]. rewrite Ez. exact N'.
      - destruct (update_missing_individual qr nan nm n nc st ch h cp sd meas controls lw i Ez) as (_ & E & _).
        unfold up. now rewrite E.
    Qed.

    Lemma update_signed : signed nm n i (up_states up) (up_states up') (up_chols up) (up_chols up').
    Proof.
      intros m Hm. destruct (Hs m Hm) as (A & N & B). pose proof (signs_cov _ _ _ B) as C.
      split; [|split; [now apply update_nonsingular|]].
      - destruct (meas i) as [z|] eqn:Ez.
        + intros a Ha. unfold up, up'.
          rewrite (up_states_ok qr Hqr nan nm n nc st ch h cp sd meas controls lw i z Ez m a)
            by (try exact Ha; apply Rgt_not_eq, innovation_var_pos, Hsd).
          rewrite (up_states_ok qr' Hqr' nan nm n nc st' ch' h cp sd meas controls lw' i z Ez m a)
            by (try exact Ha; apply Rgt_not_eq, innovation_var_pos, Hsd).
          now apply conditional_mean_ext.
        + destruct (update_missing_individual qr nan nm n nc st ch h cp sd meas controls lw i Ez) as (E & _).
          destruct (update_missing_individual qr' nan nm n nc st' ch' h cp sd meas controls lw' i Ez) as (E' & _).
          unfold up, up'. now rewrite E, E'.
      - destruct (meas i) as [z|] eqn:Ez.
        + apply triangular_unique; [| |now apply update_nonsingular|].
          * apply (up_upper_ok qr Hqr nan nm n nc st ch h cp sd meas controls lw i z Ez m).
          * apply (up_upper_ok qr' Hqr' nan nm n nc st' ch' h cp sd meas controls lw' i z Ez m).
          * intros a b Ha Hb. unfold up, up'.
            rewrite (up_cov_ok qr Hqr nan nm n nc st ch h cp sd meas controls lw i z Ez m)
              by (try assumption; apply Rgt_not_eq, innovation_var_pos, Hsd).
            rewrite (up_cov_ok qr' Hqr' nan nm n nc st' ch' h cp sd meas controls lw' i z Ez m)
              by (try assumption; apply Rgt_not_eq, innovation_var_pos, Hsd).
            now apply conditional_cov_ext.
        + destruct (update_missing_individual qr nan nm n nc st ch h cp sd meas controls lw i Ez) as (_ & E & _).
          destruct (update_missing_individual qr' nan nm n nc st' ch' h cp sd meas controls lw' i Ez) as (_ & E' & _).
          unfold up, up'. now rewrite E, E'.
    Qed.

    Lemma update_loglikes : up_loglikes up i = up_loglikes up' i.
    Proof.
      destruct (meas i) as [z|] eqn:Ez.
      - unfold up, up'.
        rewrite (up_loglikes_ok qr Hqr nan nm n nc st ch h cp sd meas controls lw i z Ez).
        rewrite (up_loglikes_ok qr' Hqr' nan nm n nc st' ch' h cp sd meas controls lw' i z Ez).
        destruct (2 <=? nm)%nat.
        + apply logsumexp_ext. intros m Hm. rewrite (Hw m Hm). f_equal. destruct (Hs m Hm) as (A & _ & B).
          apply ldens_ext; [exact A|exact (signs_cov _ _ _ B)].
        + destruct (Hs O ltac:(lia)) as (A & _ & B). apply ldens_ext; [exact A|exact (signs_cov _ _ _ B)].
      - destruct (update_missing_individual qr nan nm n nc st ch h cp sd meas controls lw i Ez) as (_ & _ & _ & E & _).
        destruct (update_missing_individual qr' nan nm n nc st' ch' h cp sd meas controls lw' i Ez) as (_ & _ & _ & E' & _).
        unfold up, up'. now rewrite E, E'.
    Qed.

    Lemma update_rest m : (m < nm)%nat ->
      up_logw up i m = up_logw up' i m /\ up_residuals up i m = up_residuals up' i m /\
      up_residual_sds up i m = up_residual_sds up' i m.
    Proof.
      intros Hm. pose proof update_loglikes as L. unfold up, up' in *.
      destruct (Hs m Hm) as (A & _ & B). pose proof (signs_cov _ _ _ B) as C.
      destruct (meas i) as [z|] eqn:Ez.
      - rewrite (up_logw_ok qr Hqr nan nm n nc st ch h cp sd meas controls lw i z Ez).
        rewrite (up_logw_ok qr' Hqr' nan nm n nc st' ch' h cp sd meas controls lw' i z Ez).
        rewrite (up_residuals_ok qr nan nm n nc st ch h cp sd meas controls lw i z Ez).
        rewrite (up_residuals_ok qr' nan nm n nc st' ch' h cp sd meas controls lw' i z Ez).
        rewrite (up_residual_sds_ok qr Hqr nan nm n nc st ch h cp sd meas controls lw i z Ez).
        rewrite (up_residual_sds_ok qr' Hqr' nan nm n nc st' ch' h cp sd meas controls lw' i z Ez).
        rewrite L, (Hw m Hm), (innovation_var_ext n _ _ h sd C).
        rewrite (ldens_ext n (st i m) (st' i m) (cov n (ch i m)) (cov n (ch' i m)) h sd _ z A C).
        split; [reflexivity|]. split; [|reflexivity]. do 3 f_equal. apply rsum_ext. intros a Ha. now rewrite (A a Ha).
      - destruct (update_missing_individual qr nan nm n nc st ch h cp sd meas controls lw i Ez) as (_ & _ & E & _ & R1 & R2).
        destruct (update_missing_individual qr' nan nm n nc st' ch' h cp sd meas controls lw' i Ez) as (_ & _ & E' & _ & R1' & R2').
        rewrite E, E', R1, R1', R2, R2'. auto.
    Qed.
  End Update.
End Steps.

(** ** One prediction *)

Definition matched (n : nat) (g g' : nat -> R) : Prop :=
  g O = g' O /\
  forall j, (j < n)%nat ->
    (g (1 + j)%nat = g' (1 + j)%nat /\ g (n + 1 + j)%nat = g' (n + 1 + j)%nat) \/
    (g (1 + j)%nat = g' (n + 1 + j)%nat /\ g (n + 1 + j)%nat = g' (1 + j)%nat).

Lemma matched_sum n g g' : matched n g g' -> rsum (2 * n + 1) g = rsum (2 * n + 1) g'.
Proof.
  intros [E0 E]. rewrite !rsum_sigma, E0, !Rplus_assoc. f_equal. rewrite <- !rsum_plus. apply rsum_ext.
  intros j Hj. destruct (E j Hj) as [[-> ->]|[-> ->]]; ring.
Qed.

Lemma point_signs n x x' u u' c : veq n x x' -> up_to_signs n u u' ->
  veq n (sigma_point n x u c O) (sigma_point n x' u' c O) /\
  forall j, (j < n)%nat ->
    (veq n (sigma_point n x u c (1 + j)) (sigma_point n x' u' c (1 + j)) /\
     veq n (sigma_point n x u c (n + 1 + j)) (sigma_point n x' u' c (n + 1 + j))) \/
    (veq n (sigma_point n x u c (1 + j)) (sigma_point n x' u' c (n + 1 + j)) /\
     veq n (sigma_point n x u c (n + 1 + j)) (sigma_point n x' u' c (1 + j))).
Proof.
  intros Hx (d & Hd & E).
  assert (P : forall y w j f, (j < n)%nat -> sigma_point n y w c (1 + j) f = y f + c * w j f).
  { intros y w j f Hj. unfold sigma_point. cbn [Nat.add Nat.eqb]. rewrite (proj2 (Nat.leb_le (S j) n)) by lia.
    do 3 f_equal. lia. }
  assert (M : forall y w j f, (j < n)%nat -> sigma_point n y w c (n + 1 + j) f = y f - c * w j f).
  { intros y w j f Hj. unfold sigma_point. rewrite (proj2 (Nat.eqb_neq (n + 1 + j) 0)) by lia.
    rewrite (proj2 (Nat.leb_gt (n + 1 + j) n)) by lia. do 3 f_equal. lia. }
  split.
  - intros f Hf. unfold sigma_point. cbn. now apply Hx.
  - intros j Hj. destruct (Hd j Hj) as [D|D]; [left|right]; split; intros f Hf;
      rewrite ?P, ?M by exact Hj; rewrite (E j f Hj Hf), D, (Hx f Hf); ring.
Qed.

Section Prediction.
  Variables qr qr' : qr_function.
  Hypothesis Hqr : correct_qr qr.
  Hypothesis Hqr' : correct_qr qr'.
  Variables (n_obs nm n no i : nat) (kappa : R).
  Hypothesis Hkappa : 0 <= kappa.
  Hypothesis Hpos : 0 < INR n + kappa.
  Hypothesis Hshape : no = O \/ nm = 1%nat.
  Variables (st st' : nat -> nat -> vec) (ch ch' : nat -> nat -> mat).
  Hypothesis Hs : signed nm n i st st' ch ch'.
  Variables (func : vec -> vec) (sds : vec) (asc aco : nat -> vec) (obs : nat -> vec).
  Hypothesis Hfunc : local_transition n (n + no) func.

  (** Each factor has a shock or is kept constant. *)
  Hypothesis Hreg : forall f, (f < n)%nat ->
    sds f <> 0 \/ (asc O f <> 0 /\ asc 1%nat f <> 0 /\ forall v, func v f = v f).

  Let c := sigma_scaling_factor n kappa.
  Let w := sigma_weights n kappa.
  Let im s f m := image n st ch c func asc aco obs i m s f.
  Let im' s f m := image n st' ch' c func asc aco obs i m s f.

  Lemma weight_nonneg s : 0 <= w s.
  Proof. now apply weights_nonneg. Qed.

  Lemma image_ext m s s' f : (m < nm)%nat -> (f < n)%nat ->
    veq n (sigma_point n (st i m) (ch i m) c s) (sigma_point n (st' i m) (ch' i m) c s') ->
    im s f m = im' s' f m.
  Proof.
    intros Hm Hf E. unfold im, im', image, anchored_transition. do 2 f_equal. apply Hfunc; [|exact Hf].
    intros g Hg. unfold all_factors. destruct (g <? n)%nat eqn:L; [|reflexivity]. apply Nat.ltb_lt in L.
    now rewrite (E g L).
  Qed.

  Lemma image_matched m : (m < nm)%nat ->
    (forall f, (f < n)%nat -> im O f m = im' O f m) /\
    forall j, (j < n)%nat ->
      (forall f, (f < n)%nat -> im (1 + j)%nat f m = im' (1 + j)%nat f m /\ im (n + 1 + j)%nat f m = im' (n + 1 + j)%nat f m) \/
      (forall f, (f < n)%nat -> im (1 + j)%nat f m = im' (n + 1 + j)%nat f m /\ im (n + 1 + j)%nat f m = im' (1 + j)%nat f m).
  Proof.
    intros Hm. destruct (Hs m Hm) as (A & _ & B). destruct (point_signs n _ _ _ _ c A B) as [P0 P]. split.
    - intros f Hf. now apply image_ext.
    - intros j Hj. destruct (P j Hj) as [[P1 P2]|[P1 P2]]; [left|right]; intros f Hf; split; now apply image_ext.
  Qed.

  Lemma weight_pair j : w (1 + j)%nat = w (n + 1 + j)%nat.
  Proof. unfold w. rewrite !weight_S by lia. reflexivity. Qed.

  Lemma mean_signs m f : (m < nm)%nat -> (f < n)%nat ->
    weighted_mean (2 * n + 1) w (fun s => im s f m) = weighted_mean (2 * n + 1) w (fun s => im' s f m).
  Proof.
    intros Hm Hf. destruct (image_matched m Hm) as [E0 E]. apply matched_sum. split; [now rewrite E0|].
    intros j Hj. rewrite <- !weight_pair. destruct (E j Hj) as [F|F]; destruct (F f Hf) as [-> ->]; auto.
  Qed.

  Lemma scatter_signs m f g : (m < nm)%nat -> (f < n)%nat -> (g < n)%nat ->
    weighted_scatter (2 * n + 1) w (fun s => im s f m) (fun s => im s g m)
    = weighted_scatter (2 * n + 1) w (fun s => im' s f m) (fun s => im' s g m).
  Proof.
    intros Hm Hf Hg. unfold weighted_scatter. rewrite (mean_signs m f Hm Hf), (mean_signs m g Hm Hg).
    destruct (image_matched m Hm) as [E0 E]. apply matched_sum. split; [now rewrite !E0|].
    intros j Hj. rewrite <- !weight_pair.
    destruct (E j Hj) as [F|F]; destruct (F f Hf) as [-> ->]; destruct (F g Hg) as [-> ->]; auto.
  Qed.

  (** v' P v for the predicted covariance P *)
  Lemma predicted_quad m p v :
    (forall f g, (f < n)%nat -> (g < n)%nat ->
       p f g = weighted_scatter (2 * n + 1) w (fun s => im s f m) (fun s => im s g m)
               + if Nat.eq_dec f g then sds f * sds f else 0) ->
    let dev f s := im s f m - weighted_mean (2 * n + 1) w (fun s => im s f m) in
    quad n p v
    = rsum (2 * n + 1) (fun s => w s * (dot n v (fun f => dev f s) * dot n v (fun f => dev f s)))
      + rsum n (fun f => (v f * sds f) * (v f * sds f)).
  Proof.
    intros C dev. unfold quad, mat_vec.
    rewrite (rsum_ext n _ (fun f => rsum n (fun g => rsum (2 * n + 1) (fun s =>
               w s * ((v f * dev f s) * (v g * dev g s)))) + (v f * sds f) * (v f * sds f))).
    - rewrite rsum_plus. f_equal.
      transitivity (rsum n (fun f => rsum (2 * n + 1) (fun s => rsum n (fun g =>
          w s * ((v f * dev f s) * (v g * dev g s)))))).
      { apply rsum_ext. intros f Hf. apply rsum_swap. }
      rewrite rsum_swap. apply rsum_ext. intros s Hs0. unfold dot. rewrite rsum_prod, <- rsum_scal_l.
      apply rsum_ext. intros f Hf. rewrite <- rsum_scal_l. reflexivity.
    - intros f Hf. rewrite <- rsum_scal_l.
      rewrite (rsum_ext n _ (fun g => rsum (2 * n + 1) (fun s => w s * ((v f * dev f s) * (v g * dev g s)))
               + (v f * v g * (if Nat.eq_dec f g then sds f * sds f else 0)))).
      + rewrite rsum_plus. f_equal. rewrite (rsum_single n f); [|assumption|].
        * destruct (Nat.eq_dec f f); [ring|congruence].
        * intros g Hg Hne. destruct (Nat.eq_dec f g); [congruence|ring].
      + intros g Hg. rewrite C by assumption. unfold weighted_scatter.
        rewrite (rsum_ext (2 * n + 1) (fun s => w s * (v f * dev f s * (v g * dev g s)))
                   (fun s => v f * v g * (w s * (dev f s * dev g s)))) by (intros; ring).
        rewrite rsum_scal_l. unfold dev. ring.
  Qed.

  Lemma predicted_nonsingular m pc : (m < nm)%nat ->
    (forall f g, (f < n)%nat -> (g < n)%nat ->
       cov n pc f g = weighted_scatter (2 * n + 1) w (fun s => im s f m) (fun s => im s g m)
               + if Nat.eq_dec f g then sds f * sds f else 0) ->
    nonsingular n pc.
  Proof.
    intros Hm C. apply nonsingular_quad. intros v Hv. rewrite (predicted_quad m _ v C) in Hv. cbv zeta in Hv.
    set (dev := fun f s => im s f m - weighted_mean (2 * n + 1) w (fun s => im s f m)) in Hv.
    assert (A : 0 <= rsum (2 * n + 1) (fun s => w s * (dot n v (fun f => dev f s) * dot n v (fun f => dev f s)))).
    { apply rsum_nonneg. intros s _. apply Rmult_le_pos; [apply weight_nonneg|apply Rle_0_sqr]. }
    assert (B : 0 <= rsum n (fun f => (v f * sds f) * (v f * sds f))) by (apply rsum_nonneg; intros; apply Rle_0_sqr).
    assert (B0 : rsum n (fun f => (v f * sds f) * (v f * sds f)) = 0).
    { change (fun f => dev f) with dev in *. unfold dev in A. lra. }
    pose proof (rsum_sq_zero n (fun f => v f * sds f) B0) as Bz. cbv beta in Bz.
    assert (A0 : rsum (2 * n + 1) (fun s => (sqrt (w s) * dot n v (fun f => dev f s)) * (sqrt (w s) * dot n v (fun f => dev f s))) = 0).
    { rewrite (rsum_ext _ _ (fun s => w s * (dot n v (fun f => dev f s) * dot n v (fun f => dev f s)))).
      - unfold dev. lra.
      - intros s _. rewrite <- (sqrt_sqrt (w s)) at 3 by apply weight_nonneg. ring. }
    pose proof (rsum_sq_zero _ (fun s => sqrt (w s) * dot n v (fun f => dev f s)) A0) as Az. cbv beta in Az.
    assert (Hw : forall s, (1 <= s < 2 * n + 1)%nat -> dot n v (fun f => dev f s) = 0).
    { intros s Hs0. pose proof (Az s ltac:(lia)) as G. apply Rmult_integral in G as [G|G]; [|exact G]. exfalso.
      assert (0 < w s).
      { unfold w. rewrite weight_S by lia. apply Rmult_lt_0_compat; [lra|]. now apply Rinv_0_lt_compat. }
      apply sqrt_eq_0 in G; lra. }
    (* factors without a shock are constant *)
    set (y := fun f => if Req_EM_T (sds f) 0 then v f * (asc O f / asc 1%nat f) else 0).
    assert (Hy : forall j, (j < n)%nat -> dot n (ch i m j) y = 0).
    { intros j Hj. pose proof (Hw (1 + j)%nat ltac:(lia)) as G1. pose proof (Hw (n + 1 + j)%nat ltac:(lia)) as G2.
      assert (G : dot n v (fun f => dev f (1 + j)%nat) - dot n v (fun f => dev f (n + 1 + j)%nat) = 0) by lra.
      unfold dot in G. rewrite <- rsum_minus in G.
      rewrite (rsum_ext n _ (fun f => 2 * c * (ch i m j f * y f))) in G.
      - rewrite rsum_scal_l in G. apply Rmult_integral in G as [G|G]; [|exact G]. exfalso.
        assert (0 < c) by (unfold c, sigma_scaling_factor; apply sqrt_lt_R0; lra). lra.
      - intros f Hf. unfold y. destruct (Req_EM_T (sds f) 0) as [Z|Z].
        + destruct (Hreg f Hf) as [N|(N0 & N1 & Hc)]; [contradiction|]. unfold dev, im, image, anchored_transition.
          rewrite !Hc. unfold all_factors. rewrite (proj2 (Nat.ltb_lt f n) Hf).
          unfold sigma_point. cbn [Nat.add Nat.eqb]. rewrite (proj2 (Nat.leb_le (S j) n)) by lia.
          rewrite (proj2 (Nat.eqb_neq (n + 1 + j) 0)) by lia. rewrite (proj2 (Nat.leb_gt (n + 1 + j) n)) by lia.
          replace (S j - 1)%nat with j by lia. replace (n + 1 + j - (n + 1))%nat with j by lia. field. exact N1.
        + pose proof (Bz f Hf) as V. apply Rmult_integral in V as [V|V]; [|contradiction]. rewrite V. ring. }
    intros f Hf. destruct (Hs m Hm) as (_ & N & _). pose proof (N y Hy f Hf) as Y. unfold y in Y.
    destruct (Req_EM_T (sds f) 0) as [Z|Z].
    - destruct (Hreg f Hf) as [?|(N0 & N1 & _)]; [contradiction|].
      apply Rmult_integral in Y as [Y|Y]; [exact Y|]. exfalso. apply Rmult_integral in Y as [Y|Y]; [contradiction|].
      now apply Rinv_neq_0_compat in Y.
    - pose proof (Bz f Hf) as V. apply Rmult_integral in V as [V|V]; [exact V|contradiction].
  Qed.

  Lemma predict_signed r r' :
    kalman_predict qr n_obs nm n no st ch c w func sds asc aco obs = Ok r ->
    kalman_predict qr' n_obs nm n no st' ch' c w func sds asc aco obs = Ok r' ->
    signed nm n i (fst r) (fst r') (snd r) (snd r').
  Proof.
    intros E E' m Hm.
    destruct (predict_ok qr Hqr n_obs nm n no st ch c w func sds asc aco obs Hfunc Hshape) as (ps & pc & Ek & P).
    destruct (predict_ok qr' Hqr' n_obs nm n no st' ch' c w func sds asc aco obs Hfunc Hshape) as (ps' & pc' & Ek' & P').
    rewrite E in Ek. rewrite E' in Ek'. injection Ek as ->. injection Ek' as ->. cbn [fst snd].
    destruct (P i m Hm) as (M & U & C). destruct (P' i m Hm) as (M' & U' & C').
    specialize (C (fun s _ => weight_nonneg s)). specialize (C' (fun s _ => weight_nonneg s)).
    pose proof (predicted_nonsingular m (pc i m) Hm C) as N.
    split; [|split; [exact N|]].
    - intros f Hf. rewrite (M f Hf), (M' f Hf). apply (mean_signs m f Hm Hf).
    - apply triangular_unique; [exact U|exact U'|exact N|]. intros f g Hf Hg. rewrite (C f g Hf Hg), (C' f g Hf Hg).
      f_equal. apply (scatter_signs m f g Hm Hf Hg).
  Qed.
End Prediction.
