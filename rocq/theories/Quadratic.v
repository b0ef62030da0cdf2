(** Expectations of polynomials of the latent factors, and the moments of sigma points. *)
Require Import Reals Lra Lia Psatz String Arith Bool List.
From Verif Require Import PyBase ListFacts ModelSpec SpecModel SpecIndex ParamsIndex SpecParse RSum Kalman SpecKalman KalmanFacts PredictFacts SpecTransition
  SpecModelDensity ModelDensityFacts SpecQuadratic.
Import ListNotations.
Open Scope R_scope.

Section Expectation.
  Variables (I : (SpecQuadratic.point -> R) -> Prop) (E : (SpecQuadratic.point -> R) -> R).
  Hypothesis HE : expectation I E.

  Lemma E_const c : I (fun _ => c) /\ E (fun _ => c) = c.
  Proof.
    destruct HE as ((I1 & E1) & L & X). destruct (L c 0 _ _ I1 I1) as [A B].
    destruct (X (fun _ => c * 1 + 0 * 1) (fun _ => c)) as [A' B']; [intros; ring|exact A|].
    split; [exact A'|]. rewrite <- B', B, E1. ring.
  Qed.
  Lemma E_ext g h : I g -> (forall x, g x = h x) -> I h /\ E h = E g.
  Proof. intros Hg Q. destruct (proj2 (proj2 HE) g h Q Hg) as [A B]. now split. Qed.
  Lemma E_plus g h : I g -> I h -> I (fun x => g x + h x) /\ E (fun x => g x + h x) = E g + E h.
  Proof.
    intros Hg Hh. destruct (proj1 (proj2 HE) 1 1 g h Hg Hh) as [A B].
    destruct (E_ext _ (fun x => g x + h x) A ltac:(intros; cbv beta; ring)) as [A' B']. split; [exact A'|]. rewrite B', B. ring.
  Qed.
  Lemma E_scal c g : I g -> I (fun x => c * g x) /\ E (fun x => c * g x) = c * E g.
  Proof.
    intros Hg. destruct (proj1 (proj2 HE) c 0 g g Hg Hg) as [A B].
    destruct (E_ext _ (fun x => c * g x) A ltac:(intros; cbv beta; ring)) as [A' B']. split; [exact A'|]. rewrite B', B. ring.
  Qed.
  Lemma E_sum N (g : nat -> SpecQuadratic.point -> R) : (forall j, (j < N)%nat -> I (g j)) ->
    I (fun x => rsum N (fun j => g j x)) /\ E (fun x => rsum N (fun j => g j x)) = rsum N (fun j => E (g j)).
  Proof.
    induction N as [|N IH]; intros Hg; cbn [rsum]; [apply E_const|].
    destruct IH as [A B]; [intros j Hj; apply Hg; lia|]. specialize (Hg N ltac:(lia)).
    destruct (E_plus _ _ A Hg) as [A' B']. split; [exact A'|]. now rewrite B', B.
  Qed.
End Expectation.

(** ** Polynomials in deviations from the mean *)

Section Polynomials.
  Variables (factors : list string) (mean : vec) (P : mat).
  Let N := length factors.
  Definition dev (j : nat) (x : SpecQuadratic.point) : R := x (nth j factors ""%string) - mean j.

  Definition affine_poly (c : R) (a : vec) (x : SpecQuadratic.point) : R := c + rsum N (fun j => a j * dev j x).
  Definition quadratic_poly (c : R) (a : vec) (B : mat) (x : SpecQuadratic.point) : R :=
    affine_poly c a x + rsum N (fun j => rsum N (fun k => B j k * (dev j x * dev k x))).

  Definition is_affine (g : SpecQuadratic.point -> R) : Prop := exists c a, forall x, g x = affine_poly c a x.
  Definition is_quadratic (g : SpecQuadratic.point -> R) : Prop := exists c a B, forall x, g x = quadratic_poly c a B x.

  Lemma affine_const c : is_affine (fun _ => c).
  Proof. exists c, (fun _ => 0). intros x. unfold affine_poly. rewrite rsum_zero; [ring|]. intros; ring. Qed.
  Lemma affine_coordinate f : In f factors -> is_affine (fun x => x f).
  Proof.
    intros H. destruct (In_nth _ _ ""%string H) as (j & Hj & <-). exists (mean j), (fun k => if (k =? j)%nat then 1 else 0).
    intros x. unfold affine_poly. rewrite (rsum_single N j); [rewrite Nat.eqb_refl; unfold dev; ring|exact Hj|].
    intros k _ Hk. rewrite (proj2 (Nat.eqb_neq k j) Hk). ring.
  Qed.
  Lemma affine_comb a b g h : is_affine g -> is_affine h -> is_affine (fun x => a * g x + b * h x).
  Proof.
    intros (c & u & Hg) (d & v & Hh). exists (a * c + b * d), (fun j => a * u j + b * v j). intros x. rewrite Hg, Hh.
    unfold affine_poly. rewrite (rsum_ext N (fun j => (a * u j + b * v j) * dev j x) (fun j => a * (u j * dev j x) + b * (v j * dev j x)))
      by (intros; ring). rewrite rsum_plus, !rsum_scal_l. ring.
  Qed.
  Lemma affine_ext g h : (forall x, g x = h x) -> is_affine g -> is_affine h.
  Proof. intros Q (c & a & Hg). exists c, a. intros x. now rewrite <- Q. Qed.

  Lemma quadratic_ext g h : (forall x, g x = h x) -> is_quadratic g -> is_quadratic h.
  Proof. intros Q (c & a & B & Hg). exists c, a, B. intros x. now rewrite <- Q. Qed.
  Lemma affine_quadratic g : is_affine g -> is_quadratic g.
  Proof.
    intros (c & a & Hg). exists c, a, (fun _ _ => 0). intros x. rewrite Hg. unfold quadratic_poly.
    rewrite (rsum_zero N (fun j => rsum N _)); [ring|]. intros j _. apply rsum_zero. intros; ring.
  Qed.
  Lemma quadratic_comb a b g h : is_quadratic g -> is_quadratic h -> is_quadratic (fun x => a * g x + b * h x).
  Proof.
    intros (c & u & B & Hg) (d & v & C & Hh). exists (a * c + b * d), (fun j => a * u j + b * v j), (fun j k => a * B j k + b * C j k).
    intros x. rewrite Hg, Hh. unfold quadratic_poly, affine_poly.
    rewrite (rsum_ext N (fun j => (a * u j + b * v j) * dev j x) (fun j => a * (u j * dev j x) + b * (v j * dev j x)))
      by (intros; ring). rewrite rsum_plus, !rsum_scal_l.
    rewrite (rsum_ext N (fun j => rsum N (fun k => (a * B j k + b * C j k) * (dev j x * dev k x)))
      (fun j => a * rsum N (fun k => B j k * (dev j x * dev k x)) + b * rsum N (fun k => C j k * (dev j x * dev k x)))).
    - rewrite rsum_plus, !rsum_scal_l. ring.
    - intros j _. rewrite <- !rsum_scal_l, <- rsum_plus. apply rsum_ext. intros; ring.
  Qed.
  Lemma quadratic_prod g h : is_affine g -> is_affine h -> is_quadratic (fun x => g x * h x).
  Proof.
    intros (c & u & Hg) (d & v & Hh). exists (c * d), (fun j => c * v j + d * u j), (fun j k => u j * v k).
    intros x. rewrite Hg, Hh. unfold quadratic_poly, affine_poly.
    rewrite (rsum_ext N (fun j => (c * v j + d * u j) * dev j x) (fun j => c * (v j * dev j x) + d * (u j * dev j x)))
      by (intros; ring). rewrite rsum_plus, !rsum_scal_l.
    rewrite (rsum_ext N (fun j => rsum N (fun k => u j * v k * (dev j x * dev k x)))
      (fun j => u j * dev j x * rsum N (fun k => v k * dev k x))).
    - rewrite rsum_scal_r. ring.
    - intros j _. rewrite <- rsum_scal_l. apply rsum_ext. intros; ring.
  Qed.
  Lemma affine_sum {A} (l : list A) (g : A -> SpecQuadratic.point -> R) : (forall a, In a l -> is_affine (g a)) ->
    is_affine (fun x => sum_of l (fun a => g a x)).
  Proof.
    induction l as [|a l IH]; intros H; cbn [sum_of]; [apply affine_const|].
    apply affine_ext with (g := fun x => 1 * g a x + 1 * sum_of l (fun a => g a x)); [intros; ring|].
    apply affine_comb; [apply H; now left|apply IH; intros; apply H; now right].
  Qed.
  Lemma quadratic_sum {A} (l : list A) (g : A -> SpecQuadratic.point -> R) : (forall a, In a l -> is_quadratic (g a)) ->
    is_quadratic (fun x => sum_of l (fun a => g a x)).
  Proof.
    induction l as [|a l IH]; intros H; cbn [sum_of]; [apply affine_quadratic, affine_const|].
    apply quadratic_ext with (g := fun x => 1 * g a x + 1 * sum_of l (fun a => g a x)); [intros; ring|].
    apply quadratic_comb; [apply H; now left|apply IH; intros; apply H; now right].
  Qed.

  (** *** Expectations *)

  Section Moments.
    Variables (I : (SpecQuadratic.point -> R) -> Prop) (E : (SpecQuadratic.point -> R) -> R).
    Hypothesis HE : expectation I E.
    Hypothesis Hm : first_two_moments factors I E mean P.

    Lemma at_j j : (j < N)%nat -> nth_error factors j = Some (nth j factors ""%string).
    Proof. intros H. now apply nth_error_nth'. Qed.

    Lemma E_dev j : (j < N)%nat -> I (dev j) /\ E (dev j) = 0.
    Proof.
      intros H. destruct (proj1 Hm j _ (at_j j H)) as [A B]. destruct (E_const I E HE (- mean j)) as [C D].
      destruct (E_plus I E HE _ _ A C) as [F G].
      destruct (E_ext I E HE _ (dev j) F ltac:(intros; unfold dev; cbv beta; ring)) as [F' G']. split; [exact F'|].
      rewrite G', G, B, D. ring.
    Qed.
    Lemma E_dev2 j k : (j < N)%nat -> (k < N)%nat -> I (fun x => dev j x * dev k x) /\ E (fun x => dev j x * dev k x) = P j k.
    Proof. intros H H'. exact (proj2 Hm j _ k _ (at_j j H) (at_j k H')). Qed.

    Lemma E_linear (a : vec) (g : nat -> SpecQuadratic.point -> R) : (forall j, (j < N)%nat -> I (g j)) ->
      I (fun x => rsum N (fun j => a j * g j x)) /\ E (fun x => rsum N (fun j => a j * g j x)) = rsum N (fun j => a j * E (g j)).
    Proof.
      intros Hg. destruct (E_sum I E HE N (fun j x => a j * g j x)) as [A B].
      - intros j Hj. exact (proj1 (E_scal I E HE (a j) (g j) (Hg j Hj))).
      - split; [exact A|]. rewrite B. apply rsum_ext. intros j Hj. exact (proj2 (E_scal I E HE (a j) (g j) (Hg j Hj))).
    Qed.
    Lemma E_bilinear (B : mat) (g : nat -> nat -> SpecQuadratic.point -> R) : (forall j k, (j < N)%nat -> (k < N)%nat -> I (g j k)) ->
      I (fun x => rsum N (fun j => rsum N (fun k => B j k * g j k x))) /\
      E (fun x => rsum N (fun j => rsum N (fun k => B j k * g j k x))) = rsum N (fun j => rsum N (fun k => B j k * E (g j k))).
    Proof.
      intros Hg. destruct (E_sum I E HE N (fun j x => rsum N (fun k => B j k * g j k x))) as [A C].
      - intros j Hj. apply (E_linear (B j) (g j)). intros k Hk. now apply Hg.
      - split; [exact A|]. rewrite C. apply rsum_ext. intros j Hj. apply (E_linear (B j) (g j)). intros k Hk. now apply Hg.
    Qed.

    Lemma E_affine c a : I (affine_poly c a) /\ E (affine_poly c a) = c.
    Proof.
      destruct (E_linear a dev) as [A B]; [intros j Hj; now apply E_dev|].
      destruct (E_plus I E HE _ _ (proj1 (E_const I E HE c)) A) as [C D]. split; [exact C|].
      unfold affine_poly. rewrite D, B, (proj2 (E_const I E HE c)), rsum_zero; [ring|].
      intros j Hj. rewrite (proj2 (E_dev j Hj)). ring.
    Qed.
    Lemma E_quadratic c a B : I (quadratic_poly c a B) /\
      E (quadratic_poly c a B) = c + rsum N (fun j => rsum N (fun k => B j k * P j k)).
    Proof.
      destruct (E_bilinear B (fun j k x => dev j x * dev k x)) as [A D]; [intros j k Hj Hk; now apply E_dev2|].
      destruct (E_affine c a) as [F G]. destruct (E_plus I E HE _ _ F A) as [J K]. split; [exact J|].
      unfold quadratic_poly. rewrite K, D, G. f_equal. apply rsum_ext. intros j Hj. apply rsum_ext. intros k Hk.
      now rewrite (proj2 (E_dev2 j k Hj Hk)).
    Qed.

    Hypothesis H3 : no_third_moments factors I E mean.

    Lemma E_dev3 j k l : (j < N)%nat -> (k < N)%nat -> (l < N)%nat ->
      I (fun x => dev j x * dev k x * dev l x) /\ E (fun x => dev j x * dev k x * dev l x) = 0.
    Proof. intros H H' H''. exact (H3 j _ k _ l _ (at_j j H) (at_j k H') (at_j l H'')). Qed.

    Lemma E_affine_quadratic a d b B :
      I (fun x => affine_poly 0 a x * quadratic_poly d b B x) /\
      E (fun x => affine_poly 0 a x * quadratic_poly d b B x) = rsum N (fun j => rsum N (fun k => a j * b k * P j k)).
    Proof.
      destruct (E_affine 0 a) as [A1 A2]. destruct (E_scal I E HE d _ A1) as [A3 A4].
      destruct (E_bilinear (fun j k => a j * b k) (fun j k x => dev j x * dev k x)) as [Q1 Q2]; [intros j k Hj Hk; now apply E_dev2|].
      destruct (E_linear a (fun j x => rsum N (fun k => rsum N (fun l => B k l * (dev j x * dev k x * dev l x))))) as [T1 T2].
      { intros j Hj. apply (E_bilinear B (fun k l x => dev j x * dev k x * dev l x)). intros k l Hk Hl. now apply E_dev3. }
      destruct (E_plus I E HE _ _ A3 Q1) as [S1 S2]. destruct (E_plus I E HE _ _ S1 T1) as [U1 U2].
      edestruct (E_ext I E HE _ (fun x => affine_poly 0 a x * quadratic_poly d b B x) U1) as [V1 V2].
      { intros x. cbv beta. unfold quadratic_poly, affine_poly. set (L := rsum N (fun j => a j * dev j x)).
        rewrite (rsum_ext N (fun j => rsum N (fun k => a j * b k * (dev j x * dev k x))) (fun j => a j * dev j x * rsum N (fun k => b k * dev k x))).
        2:{ intros j _. rewrite <- rsum_scal_l. apply rsum_ext. intros; ring. }
        rewrite (rsum_ext N (fun j => a j * rsum N (fun k => rsum N (fun l => B k l * (dev j x * dev k x * dev l x))))
          (fun j => a j * dev j x * rsum N (fun k => rsum N (fun l => B k l * (dev k x * dev l x))))).
        2:{ intros j _. rewrite Rmult_assoc. f_equal. rewrite <- rsum_scal_l. apply rsum_ext. intros k _.
            rewrite <- rsum_scal_l. apply rsum_ext. intros; ring. }
        rewrite !rsum_scal_r. fold L. ring. }
      split; [exact V1|]. rewrite V2, U2, S2, A4, A2, Q2, T2.
      rewrite (rsum_zero N (fun j => a j * E _)).
      - rewrite Rmult_0_r, Rplus_0_l, Rplus_0_r. apply rsum_ext. intros j Hj. apply rsum_ext. intros k Hk. now rewrite (proj2 (E_dev2 j k Hj Hk)).
      - intros j Hj. rewrite (proj2 (E_bilinear B (fun k l x => dev j x * dev k x * dev l x) ltac:(intros; now apply E_dev3))).
        rewrite rsum_zero; [ring|]. intros k Hk. apply rsum_zero. intros l Hl. rewrite (proj2 (E_dev3 j k l Hj Hk Hl)). ring.
    Qed.
  End Moments.

  Section TwoDistributions.
    Variables (I I' : (SpecQuadratic.point -> R) -> Prop) (E E' : (SpecQuadratic.point -> R) -> R).
    Hypothesis HE : expectation I E.
    Hypothesis HE' : expectation I' E'.
    Hypothesis Hm : first_two_moments factors I E mean P.
    Hypothesis Hm' : first_two_moments factors I' E' mean P.

    Lemma same_expectation g : is_quadratic g -> I g /\ E g = E' g.
    Proof.
      intros (c & a & B & Hg).
      destruct (E_quadratic I E HE Hm c a B) as [A1 A2]. destruct (E_quadratic I' E' HE' Hm' c a B) as [B1 B2].
      destruct (E_ext I E HE _ g A1 (fun x => eq_sym (Hg x))) as [C1 C2].
      destruct (E_ext I' E' HE' _ g B1 (fun x => eq_sym (Hg x))) as [D1 D2]. split; [exact C1|]. congruence.
    Qed.

    Hypothesis H3 : no_third_moments factors I E mean.
    Hypothesis H3' : no_third_moments factors I' E' mean.

    Lemma same_covariance g h : is_affine g -> is_quadratic h ->
      I (fun x => (g x - E g) * (h x - E h)) /\
      E (fun x => (g x - E g) * (h x - E h)) = E' (fun x => (g x - E' g) * (h x - E' h)).
    Proof.
      intros Ag Qh.
      destruct (same_expectation g (affine_quadratic g Ag)) as [_ <-]. destruct (same_expectation h Qh) as [_ <-].
      destruct Ag as (c & a & Hg). destruct Qh as (d & b & B & Hh).
      assert (Ec : E g = c).
      { destruct (E_affine I E HE Hm c a) as [A1 A2]. destruct (E_ext I E HE _ g A1 (fun x => eq_sym (Hg x))) as [_ ->]. exact A2. }
      set (e := E h). rewrite Ec.
      assert (Q : forall x, affine_poly 0 a x * quadratic_poly (d - e) b B x = (g x - c) * (h x - e)).
      { intros x. rewrite Hg, Hh. unfold quadratic_poly, affine_poly. ring. }
      destruct (E_affine_quadratic I E HE Hm H3 a (d - e) b B) as [A1 A2].
      destruct (E_affine_quadratic I' E' HE' Hm' H3' a (d - e) b B) as [B1 B2].
      destruct (E_ext I E HE _ _ A1 Q) as [C1 C2]. destruct (E_ext I' E' HE' _ _ B1 Q) as [D1 D2].
      split; [exact C1|]. congruence.
    Qed.
  End TwoDistributions.
End Polynomials.

(** ** Sigma points *)

Section SigmaPoints.
  Variables (factors : list string) (mean : vec) (u : mat) (kappa : R).
  Hypothesis Hnd : NoDup factors.
  Let n := length factors.
  Hypothesis Hpos : 0 < INR n + kappa.
  Let c := sigma_scaling_factor n kappa.
  Let w := sigma_weights n kappa.

  Definition named_point (s : nat) : SpecQuadratic.point :=
    fun f => match position f factors with Some k => sigma_point n mean u c s k | None => 0 end.
  Definition sigma_expectation (g : SpecQuadratic.point -> R) : R := rsum (2 * n + 1) (fun s => w s * g (named_point s)).
  Definition everything (g : SpecQuadratic.point -> R) : Prop := True.

  Lemma sigma_is_expectation : expectation everything sigma_expectation.
  Proof.
    unfold expectation, everything, sigma_expectation. split; [split; [exact Logic.I|]|split].
    - rewrite (rsum_ext _ _ w) by (intros; ring). now apply weights_sum.
    - intros a b g h _ _. split; [exact Logic.I|]. rewrite <- !rsum_scal_l, <- rsum_plus. apply rsum_ext. intros; ring.
    - intros g h Q _. split; [exact Logic.I|]. apply rsum_ext. intros s _. now rewrite Q.
  Qed.

  Lemma named_at j f s : nth_error factors j = Some f -> named_point s f = sigma_point n mean u c s j.
  Proof. intros H. unfold named_point. now rewrite (position_nth factors f j Hnd H). Qed.

  Lemma sp_0 f : sigma_point n mean u c 0 f = mean f.
  Proof. reflexivity. Qed.
  Lemma sp_plus j f : (j < n)%nat -> sigma_point n mean u c (1 + j) f = mean f + u j f * c.
  Proof.
    intros H. unfold sigma_point. cbn [Nat.add Nat.eqb]. rewrite (proj2 (Nat.leb_le (S j) n)) by lia.
    replace (S j - 1)%nat with j by lia. ring.
  Qed.
  Lemma sp_minus j f : (j < n)%nat -> sigma_point n mean u c (n + 1 + j) f = mean f - u j f * c.
  Proof.
    intros H. unfold sigma_point. rewrite (proj2 (Nat.eqb_neq (n + 1 + j) 0)) by lia. rewrite (proj2 (Nat.leb_gt (n + 1 + j) n)) by lia.
    replace (n + 1 + j - (n + 1))%nat with j by lia. ring.
  Qed.

  Lemma sigma_moments : first_two_moments factors everything sigma_expectation mean (cov n u).
  Proof.
    split.
    - intros j f Hj. split; [exact Logic.I|]. unfold sigma_expectation.
      apply (symmetric_mean n kappa (fun s => named_point s f) (mean j) (fun k => u k j * c) Hpos).
      + rewrite (named_at j f _ Hj). apply sp_0.
      + intros k Hk. rewrite (named_at j f _ Hj). now apply sp_plus.
      + intros k Hk. rewrite (named_at j f _ Hj). now apply sp_minus.
    - intros j f k g Hj Hk. split; [exact Logic.I|]. unfold sigma_expectation.
      apply (symmetric_scatter n kappa (fun s => named_point s f - mean j) (fun s => named_point s g - mean k) (fun l => u l j) (fun l => u l k) Hpos).
      + rewrite (named_at j f _ Hj), sp_0. ring.
      + intros l Hl. rewrite (named_at j f _ Hj), sp_plus by exact Hl. fold c. ring.
      + intros l Hl. rewrite (named_at j f _ Hj), sp_minus by exact Hl. fold c. ring.
      + intros l Hl. rewrite (named_at k g _ Hk), sp_plus by exact Hl. fold c. ring.
      + intros l Hl. rewrite (named_at k g _ Hk), sp_minus by exact Hl. fold c. ring.
  Qed.

  Lemma sigma_third : no_third_moments factors everything sigma_expectation mean.
  Proof.
    intros j f k g l h Hj Hk Hl. split; [exact Logic.I|]. unfold sigma_expectation. rewrite rsum_sigma.
    rewrite (named_at j f _ Hj), (named_at k g _ Hk), (named_at l h _ Hl), !sp_0.
    rewrite Rplus_assoc, <- rsum_plus, rsum_zero; [ring|]. intros r Hr.
    rewrite !(named_at j f _ Hj), !(named_at k g _ Hk), !(named_at l h _ Hl), !sp_plus, !sp_minus by exact Hr.
    unfold w. rewrite !weight_S by lia. ring.
  Qed.
End SigmaPoints.

(** With one factor and [kappa = 2], the fourth moments are those of a normal distribution. *)
Lemma sigma_fourth f mean u : 
  sigma_expectation [f] mean u 2 (fun x => (x f - mean O) * (x f - mean O) * (x f - mean O) * (x f - mean O))
  = 3 * (cov 1 u O O * cov 1 u O O).
Proof.
  unfold sigma_expectation. cbn [length]. rewrite rsum_sigma. cbn [rsum].
  rewrite !(named_at [f] mean u 2 ltac:(repeat constructor; intros []) 0 f) by reflexivity. cbn [length].
  pose proof (sp_plus [f] mean u 2 0 0 ltac:(cbn; lia)) as P1. pose proof (sp_minus [f] mean u 2 0 0 ltac:(cbn; lia)) as P2.
  pose proof (sp_0 [f] mean u 2 0) as P0. cbn [length Nat.add] in P0, P1, P2. cbn [Nat.add]. rewrite P0, P1, P2.
  unfold cov. cbn [rsum]. unfold sigma_weights. cbn [Nat.add INR].
  assert (Q : sigma_scaling_factor 1 2 * sigma_scaling_factor 1 2 = 3).
  { unfold sigma_scaling_factor. rewrite sqrt_sqrt; cbn [INR]; lra. }
  set (c := sigma_scaling_factor 1 2) in *.
  transitivity (/ 2 / (1 + 2) * 2 * ((c * c) * (c * c)) * (u O O * u O O * (u O O * u O O))); [field|]. rewrite Q. field.
Qed.

Lemma sigma_fourth_moments factors mean u : length factors = 1%nat -> NoDup factors ->
  normal_fourth_moments factors everything (sigma_expectation factors mean u 2) mean (cov (length factors) u).
Proof.
  intros N1 Hnd. destruct factors as [|f [|]]; try discriminate N1.
  assert (One : forall j g, nth_error [f] j = Some g -> j = O /\ g = f).
  { intros [|j] g Hj; cbn in Hj; [now injection Hj as ->|destruct j; discriminate]. }
  intros j1 f1 j2 f2 j3 f3 j4 f4 H1 H2 H3 H4. split; [exact Logic.I|].
  apply One in H1 as [-> ->], H2 as [-> ->], H3 as [-> ->], H4 as [-> ->]. rewrite sigma_fourth. cbn [length]. ring.
Qed.

(** One factor: the variance of polynomials of second degree depends on the first four
    moments. *)
Section OneFactor.
  Variables (factors : list string) (mean : vec) (P : mat).
  Variables (I I' : (SpecQuadratic.point -> R) -> Prop) (E E' : (SpecQuadratic.point -> R) -> R).
  Hypothesis HE : expectation I E.
  Hypothesis HE' : expectation I' E'.
  Hypothesis Hm : first_two_moments factors I E mean P.
  Hypothesis Hm' : first_two_moments factors I' E' mean P.
  Hypothesis H3 : no_third_moments factors I E mean.
  Hypothesis H3' : no_third_moments factors I' E' mean.
  Hypothesis N1 : length factors = 1%nat.
  Hypothesis H4 : normal_fourth_moments factors I E mean P.
  Hypothesis H4' : normal_fourth_moments factors I' E' mean P.

  Lemma E_one (J : (SpecQuadratic.point -> R) -> Prop) (F : (SpecQuadratic.point -> R) -> R) a b a' b' :
    expectation J F -> first_two_moments factors J F mean P -> no_third_moments factors J F mean -> normal_fourth_moments factors J F mean P ->
    let d := dev factors mean O in
    let q := fun x => (a * d x + b * (d x * d x - P O O)) * (a' * d x + b' * (d x * d x - P O O)) in
    J q /\ F q = a * a' * P O O + 2 * (b * b') * (P O O * P O O).
  Proof.
    intros HF M2 M3 M4 d q.
    destruct (E_dev factors mean P J F HF M2 0 ltac:(lia)) as [D1 D1']. destruct (E_dev2 factors mean P J F M2 0 0 ltac:(lia) ltac:(lia)) as [D2 D2'].
    destruct (E_dev3 factors mean J F M3 0 0 0 ltac:(lia) ltac:(lia) ltac:(lia)) as [D3 D3'].
    pose proof (nth_error_nth' factors ""%string (n := 0) ltac:(lia)) as Hz.
    destruct (M4 _ _ _ _ _ _ _ _ Hz Hz Hz Hz) as [D4 D4'].
    fold d in D1, D1', D2, D2', D3, D3'.
    change (J (fun x => d x * d x * d x * d x)) in D4. change (F (fun x => d x * d x * d x * d x) = P O O * P O O + P O O * P O O + P O O * P O O) in D4'.
    destruct (proj1 (proj2 HF) (- (a * b' + a' * b) * P O O) (a * a' - 2 * (b * b') * P O O) _ _ D1 D2) as [S1 S1'].
    destruct (proj1 (proj2 HF) (a * b' + a' * b) (b * b') _ _ D3 D4) as [S2 S2'].
    destruct (E_plus J F HF _ _ S1 S2) as [S3 S3']. destruct (E_plus J F HF _ _ S3 (proj1 (E_const J F HF (b * b' * (P O O * P O O))))) as [S4 S4'].
    destruct (E_ext J F HF _ q S4) as [S5 S5'].
    { intros x. unfold q. cbv beta. ring. }
    split; [exact S5|]. rewrite S5', S4', S3', S1', S2', (proj2 (E_const J F HF _)). fold d. rewrite D1', D2', D3', D4'. ring.
  Qed.

  Lemma same_covariance_one g h : is_quadratic factors mean g -> is_quadratic factors mean h ->
    I (fun x => (g x - E g) * (h x - E h)) /\
    E (fun x => (g x - E g) * (h x - E h)) = E' (fun x => (g x - E' g) * (h x - E' h)).
  Proof.
    intros Qg Qh.
    destruct (same_expectation factors mean P I I' E E' HE HE' Hm Hm' g Qg) as [_ Eg].
    destruct (same_expectation factors mean P I I' E E' HE HE' Hm Hm' h Qh) as [_ Eh].
    assert (Mean : forall y c a B, (forall x, y x = quadratic_poly factors mean c a B x) -> E y = c + B O O * P O O).
    { intros y c a B Hy. destruct (E_quadratic factors mean P I E HE Hm c a B) as [A1 A2].
      destruct (E_ext I E HE _ y A1 (fun x => eq_sym (Hy x))) as [_ ->]. rewrite A2, N1. cbn [rsum]. ring. }
    rewrite <- Eg, <- Eh. destruct Qg as (c & a & B & Hg), Qh as (c' & a' & B' & Hh).
    rewrite (Mean g c a B Hg), (Mean h c' a' B' Hh).
    destruct (E_one I E (a O) (B O O) (a' O) (B' O O) HE Hm H3 H4) as [A1 A2].
    destruct (E_one I' E' (a O) (B O O) (a' O) (B' O O) HE' Hm' H3' H4') as [B1 B2].
    assert (Q : forall x, (a O * dev factors mean O x + B O O * (dev factors mean O x * dev factors mean O x - P O O))
      * (a' O * dev factors mean O x + B' O O * (dev factors mean O x * dev factors mean O x - P O O))
      = (g x - (c + B O O * P O O)) * (h x - (c' + B' O O * P O O))).
    { intros x. rewrite Hg, Hh. unfold quadratic_poly, affine_poly. rewrite N1. cbn [rsum]. ring. }
    destruct (E_ext I E HE _ _ A1 Q) as [C1 C2]. destruct (E_ext I' E' HE' _ _ B1 Q) as [D1 D2].
    split; [exact C1|]. congruence.
  Qed.
End OneFactor.
