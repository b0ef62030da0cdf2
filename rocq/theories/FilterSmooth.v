(** The filter is differentiable: if its inputs are differentiable functions of a real
    number, so are the contributions to the log likelihood. *)
From Coquelicot Require Import Coquelicot.
Require Import Reals Lra Lia Psatz Arith Bool String List.
From Verif Require Import PyBase ListFacts RSum Kalman SpecKalman KalmanFacts KalmanOrder KalmanSeq PredictFacts
  ModelSpec ProcessModel CheckModel SpecModel ParamsIndex ParseParams ProcessData Clipping Likelihood SpecLikelihood QRSigns
  PropsNumerics Smooth CholeskySmooth.
Import ListNotations.
Open Scope R_scope.

(** ** Formulas *)

Lemma sm_scale f c x : smooth f x -> smooth (fun y => f y / c) x.
Proof. intros H. unfold Rdiv. apply sm_mult; [exact H|apply sm_const]. Qed.

Lemma sm_logsumexp k (f : nat -> R -> R) x : (1 <= k)%nat -> (forall j, (j < k)%nat -> smooth (f j) x) ->
  smooth (fun y => logsumexp k (fun j => f j y)) x.
Proof.
  intros Hk H. apply (sm_ext (fun y => ln (rsum k (fun j => exp (f j y))))).
  - intros y. now rewrite logsumexp_ln.
  - apply sm_ln; [apply sm_rsum; intros; apply sm_exp; auto|]. apply rsum_pos; [exact Hk|]. intros. apply exp_pos.
Qed.

Lemma sm_soft_clip lo up lh uh f x : smooth f x -> smooth (fun y => soft_clip lo up lh uh (f y)) x.
Proof.
  intros H.
  assert (A : smooth (fun y => match lo with
                               | Some l => logsumexp2 (lh * f y) (lh * l) / lh
                               | None => f y end) x).
  { destruct lo as [l|]; [|exact H]. apply sm_scale. unfold logsumexp2.
    apply (sm_logsumexp 2 (fun k y => match k with O => lh * f y | _ => lh * l end)); [lia|].
    intros [|j] _; [apply sm_mult; [apply sm_const|exact H]|apply sm_const]. }
  unfold soft_clip. destruct up as [u|]; [|exact A]. apply sm_scale, sm_opp. unfold logsumexp2.
  apply (sm_logsumexp 2 (fun k y => match k with O => uh * - match lo with
                               | Some l => logsumexp2 (lh * f y) (lh * l) / lh
                               | None => f y end | _ => uh * - u end)); [lia|].
  intros [|j] _; [apply sm_mult; [apply sm_const|now apply sm_opp]|apply sm_const].
Qed.

Section Formulas.
  Variables (n : nat) (x : R) (st : R -> vec) (p : R -> mat) (h : R -> vec) (sd off : R -> R) (z : R).
  Hypothesis Hst : forall a, (a < n)%nat -> smooth (fun y => st y a) x.
  Hypothesis Hp : forall a b, (a < n)%nat -> (b < n)%nat -> smooth (fun y => p y a b) x.
  Hypothesis Hh : forall a, (a < n)%nat -> smooth (fun y => h y a) x.
  Hypothesis Hsd : smooth sd x.
  Hypothesis Hoff : smooth off x.
  Hypothesis Hv : 0 < innovation_var n (p x) (h x) (sd x).

  Lemma sm_dot : smooth (fun y => dot n (st y) (h y)) x.
  Proof. unfold dot. apply sm_rsum. intros a Ha. apply sm_mult; auto. Qed.

  Lemma sm_mat_vec a : (a < n)%nat -> smooth (fun y => mat_vec n (p y) (h y) a) x.
  Proof. intros Ha. unfold mat_vec. apply sm_rsum. intros b Hb. apply sm_mult; auto. Qed.

  Lemma sm_innovation : smooth (fun y => innovation_var n (p y) (h y) (sd y)) x.
  Proof.
    unfold innovation_var, quad. apply sm_plus; [|now apply sm_mult]. apply sm_rsum. intros a Ha.
    apply sm_mult; [auto|now apply sm_mat_vec].
  Qed.

  Lemma sm_gain a : (a < n)%nat -> smooth (fun y => gain n (p y) (h y) (sd y) a) x.
  Proof. intros Ha. unfold gain. apply sm_div; [now apply sm_mat_vec|apply sm_innovation|lra]. Qed.

  Lemma sm_residual : smooth (fun y => z - (dot n (st y) (h y) + off y)) x.
  Proof. apply sm_minus; [apply sm_const|]. apply sm_plus; [apply sm_dot|exact Hoff]. Qed.

  Lemma sm_conditional_mean a : (a < n)%nat ->
    smooth (fun y => conditional_mean n (st y) (p y) (h y) (sd y) (off y) z a) x.
  Proof.
    intros Ha. unfold conditional_mean. apply sm_plus; [auto|]. apply sm_mult; [now apply sm_gain|apply sm_residual].
  Qed.

  Lemma sm_conditional_cov a b : (a < n)%nat -> (b < n)%nat ->
    smooth (fun y => conditional_cov n (p y) (h y) (sd y) a b) x.
  Proof.
    intros Ha Hb. unfold conditional_cov. apply sm_minus; [auto|]. apply sm_mult; [now apply sm_gain|].
    apply sm_rsum. intros c Hc. apply sm_mult; auto.
  Qed.

  Lemma sm_ldens : smooth (fun y => ldens n (st y) (p y) (h y) (sd y) (off y) z) x.
  Proof.
    assert (0 < PI) by apply PI_RGT_0. unfold ldens. apply sm_scale, sm_opp, sm_plus.
    - apply sm_ln; [apply sm_mult; [apply sm_const|apply sm_innovation]|]. apply Rmult_lt_0_compat; [lra|exact Hv].
    - apply sm_div; [apply sm_mult; apply sm_residual|apply sm_innovation|lra].
  Qed.
End Formulas.

(** ** Beliefs about one individual *)

Section Steps.
  Variable qr : qr_function.
  Hypothesis Hqr : correct_qr qr.
  Variable nan : R.
  Variable tfunc : dict (list R) -> vec -> vec.
  Variables (n_obs nm n no nc : nat) (kappa : R) (i : nat) (x : R).
  Hypothesis Hnm : (1 <= nm)%nat.
  Hypothesis Hkappa : 0 <= kappa.
  Hypothesis Hpos : 0 < INR n + kappa.
  Hypothesis Hshape : no = O \/ nm = 1%nat.
  Hypothesis Htf : forall c, local_transition n (n + no) (tfunc c).

  Variable inp : R -> inputs.
  Variables (values : nat -> nat -> option R) (controls observed : nat -> nat -> nat -> option R).
  Hypothesis Hdata : forall y, in_values (inp y) = values /\ in_controls (inp y) = controls /\ in_observed (inp y) = observed.

  Definition smooth_belief (b : R -> belief) : Prop :=
    forall m, (m < nm)%nat ->
      (forall a, (a < n)%nat -> smooth (fun y => be_states (b y) i m a) x) /\
      (forall a c, (a < n)%nat -> (c < n)%nat -> smooth (fun y => cov n (be_chols (b y) i m) a c) x) /\
      smooth (fun y => be_logw (b y) i m) x /\
      locally x (fun y : R => upper_triangular n (be_chols (b y) i m) /\ nonsingular n (be_chols (b y) i m)).

  (** What is needed of the inputs of one event. *)
  Definition smooth_event (e : event) : Prop :=
    locally x (fun y : R => regular_event tfunc n (inp y) e) /\
    match e with
    | Measure k _ | Anchor k _ =>
        (forall a, (a < n)%nat -> smooth (fun y => in_loadings (inp y) k a) x) /\
        (forall c, (c < nc)%nat -> smooth (fun y => in_control_params (inp y) k c) x) /\
        smooth (fun y => in_sd (inp y) k) x
    | Transition t =>
        (forall f, (f < n)%nat -> smooth (fun y => in_shock_sds (inp y) t f) x) /\
        (forall f, (f < n + no)%nat -> smooth (fun y => in_scaling (inp y) t f) x /\ smooth (fun y => in_constants (inp y) t f) x) /\
        (forall f, (f < n)%nat -> smooth (fun y => in_scaling (inp y) (t + 1)%nat f) x /\
           smooth (fun y => in_constants (inp y) (t + 1)%nat f) x /\ in_scaling (inp x) (t + 1)%nat f <> 0) /\
        (forall v : R -> vec, (forall g, (g < n + no)%nat -> smooth (fun y => v y g) x) ->
           forall f, (f < n)%nat -> smooth (fun y => tfunc (in_coeffs (inp y) t) (v y) f) x)
    end.

  Section Update.
    Variables (anchoring : bool) (k t : nat) (b : R -> belief).
    Hypothesis Hb : smooth_belief b.
    Hypothesis Hsd : locally x (fun y : R => in_sd (inp y) k <> 0).
    Hypothesis Hl : forall a, (a < n)%nat -> smooth (fun y => in_loadings (inp y) k a) x.
    Hypothesis Hc : forall c, (c < nc)%nat -> smooth (fun y => in_control_params (inp y) k c) x.
    Hypothesis Hs : smooth (fun y => in_sd (inp y) k) x.
    Let br y := update_event qr nan nm n nc (inp y) anchoring k t (b y).
    Let up y := kalman_update qr nan nm n nc (be_states (b y)) (be_chols (b y))
                (in_loadings (inp y) k) (in_control_params (inp y) k) (in_sd (inp y) k) (in_values (inp y) k)
                (in_controls (inp y) t) (be_logw (b y)).
    Let off y := dot nc (fun c => to_number nan (controls t i c)) (in_control_params (inp y) k).
    Let ld z m y := ldens n (be_states (b y) i m) (cov n (be_chols (b y) i m)) (in_loadings (inp y) k) (in_sd (inp y) k) (off y) z.

    Lemma sm_off : smooth off x.
    Proof. unfold off, dot. apply sm_rsum. intros c Hc'. apply sm_mult; [apply sm_const|now apply Hc]. Qed.

    Lemma var_pos m : 0 < innovation_var n (cov n (be_chols (b x) i m)) (in_loadings (inp x) k) (in_sd (inp x) k).
    Proof. apply innovation_var_pos. exact (loc_at _ _ Hsd). Qed.

    Lemma sm_ld z m : (m < nm)%nat -> smooth (ld z m) x.
    Proof.
      intros Hm. destruct (Hb m Hm) as (A & B & _ & _). unfold ld.
      apply (sm_ldens n x (fun y => be_states (b y) i m) (fun y => cov n (be_chols (b y) i m))
               (fun y => in_loadings (inp y) k) (fun y => in_sd (inp y) k) off z); auto using sm_off, var_pos.
    Qed.

    Lemma values_eq y : in_values (inp y) k i = values k i.
    Proof. destruct (Hdata y) as (-> & _). reflexivity. Qed.

    Lemma off_eq y : dot nc (fun c => to_number nan (in_controls (inp y) t i c)) (in_control_params (inp y) k) = off y.
    Proof. unfold off. destruct (Hdata y) as (_ & -> & _). reflexivity. Qed.

    Lemma update_contribution : smooth (fun y => re_contribution (snd (br y)) i) x.
    Proof.
      unfold br, update_event. cbn [snd re_contribution]. change (smooth (fun y => up_loglikes (up y) i) x).
      destruct (values k i) as [z|] eqn:Ez.
      - apply (sm_ext (fun y => if (2 <=? nm)%nat then logsumexp nm (fun m => ld z m y + be_logw (b y) i m) else ld z O y)).
        + intros y. unfold up. symmetry. unfold ld. rewrite <- (off_eq y). apply up_loglikes_ok; [exact Hqr|].
          now rewrite values_eq.
        + destruct (2 <=? nm)%nat.
          * apply (sm_logsumexp nm (fun m y => ld z m y + be_logw (b y) i m)); [exact Hnm|]. intros m Hm.
            apply sm_plus; [now apply sm_ld|]. now apply Hb.
          * apply sm_ld. lia.
      - apply (sm_ext (fun _ => 0)); [|apply sm_const]. intros y. symmetry. unfold up.
        assert (E : in_values (inp y) k i = None) by now rewrite values_eq.
        destruct (update_missing_individual qr nan nm n nc (be_states (b y)) (be_chols (b y)) (in_loadings (inp y) k)
          (in_control_params (inp y) k) (in_sd (inp y) k) (in_values (inp y) k) (in_controls (inp y) t) (be_logw (b y)) i E) as (_ & _ & _ & Z & _).
        exact Z.
    Qed.

    Lemma update_smooth : smooth_belief (fun y => fst (br y)).
    Proof.
      intros m Hm. destruct (Hb m Hm) as (A & B & C & D). unfold br, update_event. cbn [fst be_states be_chols be_logw].
      fold (up x). destruct (values k i) as [z|] eqn:Ez.
      - assert (Ez' : forall y, in_values (inp y) k i = Some z) by (intros y; now rewrite values_eq).
        assert (W : smooth (fun y => up_logw (up y) i m) x).
        { apply (sm_ext (fun y => if (2 <=? nm)%nat then ld z m y + be_logw (b y) i m - up_loglikes (up y) i else be_logw (b y) i m)).
          - intros y. symmetry. unfold ld. rewrite <- (off_eq y). apply up_logw_ok; [exact Hqr|]. apply Ez'.
          - destruct (2 <=? nm)%nat; [|exact C]. apply sm_minus; [apply sm_plus; [now apply sm_ld|exact C]|].
            exact update_contribution. }
        destruct anchoring; [auto|]. split; [|split; [|split; [exact W|]]].
        + intros a Ha. apply (sm_ext_loc (fun y => conditional_mean n (be_states (b y) i m) (cov n (be_chols (b y) i m))
            (in_loadings (inp y) k) (in_sd (inp y) k) (off y) z a)).
          * apply (loc_imp (fun y => in_sd (inp y) k <> 0)); [|exact Hsd]. intros y Hy. symmetry. rewrite <- (off_eq y).
            apply up_states_ok; [exact Hqr|apply Ez'| |exact Ha]. apply Rgt_not_eq, innovation_var_pos, Hy.
          * apply (sm_conditional_mean n x (fun y => be_states (b y) i m) (fun y => cov n (be_chols (b y) i m))
               (fun y => in_loadings (inp y) k) (fun y => in_sd (inp y) k) off z); auto using sm_off, var_pos.
        + intros a c Ha Hc'. apply (sm_ext_loc (fun y => conditional_cov n (cov n (be_chols (b y) i m))
            (in_loadings (inp y) k) (in_sd (inp y) k) a c)).
          * apply (loc_imp (fun y => in_sd (inp y) k <> 0)); [|exact Hsd]. intros y Hy. symmetry.
            apply (up_cov_ok qr Hqr nan nm n nc (be_states (b y)) (be_chols (b y)) _ _ _ _ _ _ i z (Ez' y)); [|exact Ha|exact Hc'].
            apply Rgt_not_eq, innovation_var_pos, Hy.
          * apply (sm_conditional_cov n x (fun y => cov n (be_chols (b y) i m))
               (fun y => in_loadings (inp y) k) (fun y => in_sd (inp y) k)); auto using var_pos.
        + apply (loc_imp (fun y => in_sd (inp y) k <> 0 /\
            forall m, (m < nm)%nat -> upper_triangular n (be_chols (b y) i m) /\ nonsingular n (be_chols (b y) i m))).
          * intros y [Hy Hall]. split; [exact (up_upper_ok qr Hqr nan nm n nc _ _ _ _ _ _ _ _ i z (Ez' y) m)|].
            apply (update_nonsingular qr Hqr nan nm n nc i (be_states (b y)) (be_states (b y)) (be_chols (b y)) (be_chols (b y))); [exact Hy| |exact Hm].
            intros m' Hm'. split; [intros a _; reflexivity|]. split; [now apply Hall|apply signs_refl].
          * apply loc_and; [exact Hsd|]. apply loc_nat. intros m' Hm'. now apply Hb.
      - assert (M : forall y, up_states (up y) i = be_states (b y) i /\ up_chols (up y) i = be_chols (b y) i /\ up_logw (up y) i = be_logw (b y) i).
        { intros y. assert (E : in_values (inp y) k i = None) by now rewrite values_eq.
          destruct (update_missing_individual qr nan nm n nc (be_states (b y)) (be_chols (b y)) (in_loadings (inp y) k)
          (in_control_params (inp y) k) (in_sd (inp y) k) (in_values (inp y) k) (in_controls (inp y) t) (be_logw (b y)) i E) as (Z1 & Z2 & Z3 & _). auto. }
        split; [|split; [|split]].
        + intros a Ha. apply (sm_ext (fun y => be_states (b y) i m a)); [|auto]. intros y. destruct anchoring; [reflexivity|].
          exact (f_equal (fun g => g m a) (eq_sym (proj1 (M y)))).
        + intros a c Ha Hc'. apply (sm_ext (fun y => cov n (be_chols (b y) i m) a c)); [|auto]. intros y. destruct anchoring; [reflexivity|].
          exact (f_equal (fun g => cov n (g m) a c) (eq_sym (proj1 (proj2 (M y))))).
        + apply (sm_ext (fun y => be_logw (b y) i m)); [|auto]. intros y. exact (f_equal (fun g => g m) (eq_sym (proj2 (proj2 (M y))))).
        + apply (loc_imp (fun y : R => upper_triangular n (be_chols (b y) i m) /\ nonsingular n (be_chols (b y) i m))); [|exact D].
          intros y Q. destruct anchoring; [exact Q|].
          change (upper_triangular n (up_chols (up y) i m) /\ nonsingular n (up_chols (up y) i m)).
          destruct (M y) as (_ & -> & _). exact Q.
    Qed.
  End Update.

  Section Transition.
    Variables (t : nat) (b b' : R -> belief).
    Hypothesis Hb : smooth_belief b.
    Hypothesis He : smooth_event (Transition t).
    Hypothesis Ht : forall y, transition_event qr nan tfunc n_obs nm n no kappa (inp y) t (b y) = Ok (b' y).

    Let c := sigma_scaling_factor n kappa.
    Let w := sigma_weights n kappa.
    (** The belief with the differentiable factors. *)
    Let root y := fun (j m : nat) => chol n (cov n (be_chols (b y) j m)).
    Let func y := tfunc (in_coeffs (inp y) t).
    Let asc y := fun r => in_scaling (inp y) (t + r)%nat.
    Let aco y := fun r => in_constants (inp y) (t + r)%nat.
    Let obs := fun j f => to_number nan (observed t j f).
    Let im y m s f := image n (be_states (b y)) (root y) c (func y) (asc y) (aco y) obs i m s f.

    Lemma sm_root m a d : (m < nm)%nat -> (a < n)%nat -> (d < n)%nat -> smooth (fun y => root y i m a d) x.
    Proof.
      intros Hm Ha Hd. destruct (Hb m Hm) as (_ & B & _ & D). apply loc_at in D. unfold root.
      apply (chol_smooth n x (fun y => cov n (be_chols (b y) i m)) (be_chols (b x) i m)); try tauto.
      intros ? ? _ _. reflexivity.
    Qed.

    Lemma sm_image m s f : (m < nm)%nat -> (s < 2 * n + 1)%nat -> (f < n)%nat -> smooth (fun y => im y m s f) x.
    Proof.
      intros Hm Hs Hf. destruct He as (_ & _ & H0 & H1 & Hfun). destruct (H1 f Hf) as (S1 & S2 & N).
      unfold im, image, anchored_transition. unfold asc at 2, aco at 2. apply sm_div; [|exact S1|exact N].
      apply sm_minus; [|exact S2]. unfold func.
      apply (Hfun (fun y => fun g => all_factors n (sigma_point n (be_states (b y) i m) (root y i m) c s) (obs i) g * asc y O g + aco y O g)); [|exact Hf].
      intros g Hg. destruct (H0 g Hg) as (A & B). unfold asc, aco. rewrite Nat.add_0_r.
      apply sm_plus; [|exact B]. apply sm_mult; [|exact A]. unfold all_factors.
      destruct (g <? n)%nat eqn:L; [|apply sm_const]. apply Nat.ltb_lt in L. unfold sigma_point.
      destruct (Hb m Hm) as (X & _). destruct (Nat.eqb_spec s 0) as [Z|Z]; [now apply X|].
      destruct (Nat.leb_spec s n) as [Q|Q].
      - apply sm_plus; [now apply X|]. apply sm_mult; [apply sm_const|]. apply sm_root; [exact Hm|lia|exact L].
      - apply sm_minus; [now apply X|]. apply sm_mult; [apply sm_const|]. apply sm_root; [exact Hm|lia|exact L].
    Qed.

    Lemma sm_wmean m f : (m < nm)%nat -> (f < n)%nat -> smooth (fun y => weighted_mean (2 * n + 1) w (fun s => im y m s f)) x.
    Proof.
      intros Hm Hf. unfold weighted_mean. apply sm_rsum. intros s Hs. apply sm_mult; [apply sm_const|now apply sm_image].
    Qed.

    Lemma sm_wscatter m f g : (m < nm)%nat -> (f < n)%nat -> (g < n)%nat ->
      smooth (fun y => weighted_scatter (2 * n + 1) w (fun s => im y m s f) (fun s => im y m s g)) x.
    Proof.
      intros Hm Hf Hg. unfold weighted_scatter. apply sm_rsum. intros s Hs. apply sm_mult; [apply sm_const|].
      apply sm_mult; (apply sm_minus; [now apply sm_image|now apply sm_wmean]).
    Qed.

    Lemma near_regular : locally x (fun y : R => regular_event tfunc n (inp y) (Transition t) /\
      forall m, (m < nm)%nat -> upper_triangular n (be_chols (b y) i m) /\ nonsingular n (be_chols (b y) i m)).
    Proof.
      apply loc_and; [exact (proj1 He)|]. apply loc_nat. intros m Hm. now apply Hb.
    Qed.

    Lemma obs_eq y : (fun j f => to_number nan (in_observed (inp y) t j f)) = obs.
    Proof. unfold obs. destruct (Hdata y) as (_ & _ & ->). reflexivity. Qed.

    Lemma signed_root y :
      (forall m, (m < nm)%nat -> upper_triangular n (be_chols (b y) i m) /\ nonsingular n (be_chols (b y) i m)) ->
      signed nm n i (be_states (b y)) (be_states (b y)) (be_chols (b y)) (root y).
    Proof.
      intros Hy m Hm. split; [intros a _; reflexivity|]. destruct (Hy m Hm) as [U N]. split; [exact N|]. now apply chol_signs.
    Qed.

    Lemma predicted y : exists st ch,
      b' y = mk_belief st ch (be_logw (b y)) /\
      forall m, (m < nm)%nat ->
        (forall f, (f < n)%nat -> st i m f = weighted_mean (2 * n + 1) w
           (fun s => image n (be_states (b y)) (be_chols (b y)) c (func y) (asc y) (aco y) obs i m s f)) /\
        upper_triangular n (ch i m) /\
        forall f g, (f < n)%nat -> (g < n)%nat -> cov n (ch i m) f g
          = weighted_scatter (2 * n + 1) w
              (fun s => image n (be_states (b y)) (be_chols (b y)) c (func y) (asc y) (aco y) obs i m s f)
              (fun s => image n (be_states (b y)) (be_chols (b y)) c (func y) (asc y) (aco y) obs i m s g)
            + if Nat.eq_dec f g then in_shock_sds (inp y) t f * in_shock_sds (inp y) t f else 0.
    Proof.
      destruct (predict_ok qr Hqr n_obs nm n no (be_states (b y)) (be_chols (b y)) c w (func y) (in_shock_sds (inp y) t)
        (asc y) (aco y) obs (Htf _) Hshape) as (ps & pc & Ek & P).
      pose proof (Ht y) as E. unfold transition_event in E. rewrite obs_eq in E. unfold asc, aco, func, c, w in Ek.
      rewrite Ek in E. cbn [rbind fst snd] in E. injection E as <-. exists ps, pc. split; [reflexivity|].
      intros m Hm. destruct (P i m Hm) as (M & U & C). split; [exact M|]. split; [exact U|]. apply C.
      intros s _. now apply weights_nonneg.
    Qed.

    Lemma transition_smooth : smooth_belief b'.
    Proof.
      intros m Hm. destruct (Hb m Hm) as (A & B & C & D).
      assert (Hmean : forall y, (forall m, (m < nm)%nat -> upper_triangular n (be_chols (b y) i m) /\ nonsingular n (be_chols (b y) i m)) ->
        forall f, (f < n)%nat -> be_states (b' y) i m f = weighted_mean (2 * n + 1) w (fun s => im y m s f)).
      { intros y Hy f Hf. destruct (predicted y) as (st & ch & -> & P). cbn [be_states]. destruct (P m Hm) as (M & _ & _).
        rewrite (M f Hf). exact (mean_signs nm n no i kappa Hshape _ _ _ _ (signed_root y Hy) (func y) (asc y) (aco y) obs (Htf _) m f Hm Hf). }
      assert (Hcov : forall y, (forall m, (m < nm)%nat -> upper_triangular n (be_chols (b y) i m) /\ nonsingular n (be_chols (b y) i m)) ->
        forall f g, (f < n)%nat -> (g < n)%nat -> cov n (be_chols (b' y) i m) f g
          = weighted_scatter (2 * n + 1) w (fun s => im y m s f) (fun s => im y m s g)
            + if Nat.eq_dec f g then in_shock_sds (inp y) t f * in_shock_sds (inp y) t f else 0).
      { intros y Hy f g Hf Hg. destruct (predicted y) as (st & ch & -> & P). cbn [be_chols]. destruct (P m Hm) as (_ & _ & V).
        rewrite (V f g Hf Hg). f_equal.
        exact (scatter_signs nm n no i kappa Hshape _ _ _ _ (signed_root y Hy) (func y) (asc y) (aco y) obs (Htf _) m f g Hm Hf Hg). }
      split; [|split; [|split]].
      - intros a Ha. apply (sm_ext_loc (fun y => weighted_mean (2 * n + 1) w (fun s => im y m s a))); [|now apply sm_wmean].
        apply (loc_imp _ _ _ (fun y Hy => eq_sym (Hmean y (proj2 Hy) a Ha)) near_regular).
      - intros a d Ha Hd. apply (sm_ext_loc (fun y => weighted_scatter (2 * n + 1) w (fun s => im y m s a) (fun s => im y m s d)
            + if Nat.eq_dec a d then in_shock_sds (inp y) t a * in_shock_sds (inp y) t a else 0)).
        + apply (loc_imp _ _ _ (fun y Hy => eq_sym (Hcov y (proj2 Hy) a d Ha Hd)) near_regular).
        + apply sm_plus; [now apply sm_wscatter|]. destruct (Nat.eq_dec a d); [|apply sm_const].
          destruct He as (_ & S & _). apply sm_mult; now apply S.
      - apply (sm_ext (fun y => be_logw (b y) i m)); [|exact C]. intros y. destruct (predicted y) as (st & ch & -> & _). reflexivity.
      - apply (loc_imp _ _ _) with (2 := near_regular). intros y [Hr Hy]. destruct (predicted y) as (st & ch & E & P).
        rewrite E. cbn [be_chols]. destruct (P m Hm) as (_ & U & V). split; [exact U|].
        refine (predicted_nonsingular nm n no i kappa Hkappa Hpos Hshape (be_states (b y)) (be_states (b y)) (be_chols (b y)) (be_chols (b y)) _
                 (func y) (in_shock_sds (inp y) t) (asc y) (aco y) obs _ m (ch i m) Hm V).
        + intros m' Hm'. split; [intros a _; reflexivity|]. split; [now apply Hy|apply signs_refl].
        + exact Hr.
    Qed.
  End Transition.

  Lemma run_smooth evs : Forall smooth_event evs ->
    forall (b : R -> belief) (recs : R -> list record), smooth_belief b ->
    (forall y, run qr nan tfunc n_obs nm n no nc kappa (inp y) evs (b y) = Ok (recs y)) ->
    exists l : list (R -> record),
      (forall y, recs y = map (fun r => r y) l) /\ Forall (fun r => smooth (fun y => re_contribution (r y) i) x) l.
  Proof.
    induction 1 as [|e evs He HF IH]; intros b recs Hb E.
    - exists []. split; [|constructor]. intros y. specialize (E y). now injection E as <-.
    - assert (U : forall a k t (tl : R -> list record), smooth_event (Measure k t) ->
        (forall y, run qr nan tfunc n_obs nm n no nc kappa (inp y) evs (fst (update_event qr nan nm n nc (inp y) a k t (b y))) = Ok (tl y)) ->
        exists l : list (R -> record),
          (forall y, snd (update_event qr nan nm n nc (inp y) a k t (b y)) :: tl y = map (fun r => r y) l) /\
          Forall (fun r => smooth (fun y => re_contribution (r y) i) x) l).
      { intros a k t tl (H1 & H2 & H3 & H4) Etl.
        destruct (IH (fun y => fst (update_event qr nan nm n nc (inp y) a k t (b y))) tl) as (l & El & Fl).
        - apply update_smooth; assumption.
        - exact Etl.
        - exists ((fun y => snd (update_event qr nan nm n nc (inp y) a k t (b y))) :: l). split.
          + intros y. cbn [map]. now rewrite <- El.
          + constructor; [|exact Fl]. apply update_contribution; assumption. }
      destruct e as [k t|k t|t]; cbn [run] in E.
      + destruct (U false k t (fun y => tl (recs y)) He) as (l & El & Fl).
        * intros y. specialize (E y). apply rbind_ok in E as (tl & Etl & [= <-]). cbn [List.tl]. exact Etl.
        * exists l. split; [|exact Fl]. intros y. rewrite <- El. specialize (E y). apply rbind_ok in E as (tl & Etl & [= <-]). reflexivity.
      + destruct (U true k t (fun y => tl (recs y)) He) as (l & El & Fl).
        * intros y. specialize (E y). apply rbind_ok in E as (tl & Etl & [= <-]). cbn [List.tl]. exact Etl.
        * exists l. split; [|exact Fl]. intros y. rewrite <- El. specialize (E y). apply rbind_ok in E as (tl & Etl & [= <-]). reflexivity.
      + apply (IH (fun y => match transition_event qr nan tfunc n_obs nm n no kappa (inp y) t (b y) with Ok b' => b' | Err _ => b y end)).
        * apply (transition_smooth t b _ Hb He). intros y. specialize (E y). apply rbind_ok in E as (b' & Eb' & _). now rewrite Eb'.
        * intros y. specialize (E y). apply rbind_ok in E as (b' & Eb' & E). now rewrite Eb'.
  Qed.

  Lemma contribution_smooth o (l : list (R -> record)) :
    Forall (fun r => smooth (fun y => re_contribution (r y) i) x) l ->
    smooth (fun y => contribution_of o (map (fun r => r y) l) i) x.
  Proof.
    unfold contribution_of, sum_list. induction 1 as [|r l Hr _ IH]; cbn [map fold_right]; [apply sm_const|].
    apply sm_plus; [|exact IH]. unfold clip_with. now apply sm_soft_clip.
  Qed.
End Steps.
