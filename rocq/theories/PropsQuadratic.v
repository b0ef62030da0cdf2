(** Predictions for production functions of at most second degree (C105, C106). *)
Require Import Nsatz Reals Lra Lia Psatz Qreals String Arith ZArith Bool List.
From Verif Require Import PyBase ListFacts ModelSpec ProcessModel CheckModel SpecModel ProcessModelFacts
  SpecParse SpecIndex IndexFacts SpecFacts ParamsIndex ParseParams ParseFacts AnchorFacts PropsParse ProcessData SpecData DataFacts PropsData
  RSum Kalman SpecKalman KalmanFacts PredictFacts Likelihood SpecLikelihood LikelihoodRun SpecTransition TransitionFunctions PropsTransition
  SpecModelDensity ModelDensityFacts ExampleModels PropsSpec PropsLikelihood QRWitness PropsNumerics PropsBayes ModelInputs PropsPrefix
  ParamsVec PropsFiltered PropsRenormalization PropsFactorOrder PropsControls SpecQuadratic Quadratic.
Import ListNotations.
Open Scope R_scope.

(** ** The next factors are polynomials of the factors *)

Section Next.
  Variables (nan : R) (md : model_dict) (val : label -> R) (data : nat -> string -> option R) (mean : vec).
  Let factors := latent_of md.
  Let all := latent_of md ++ observed_of md.

  Lemma input_affine t f : is_affine factors mean (fun x => input_value nan md val data t x f).
  Proof.
    unfold input_value. destruct (in_dec string_dec f (latent_of md)) as [Hin|Hin]; [|apply affine_const].
    apply affine_ext with (g := fun x => anchoring_scale md val t f * x f + 1 * anchoring_constant md val t f); [intros; ring|].
    apply affine_comb; [now apply affine_coordinate|apply affine_const].
  Qed.

  Lemma linear_part_affine t beta : is_affine factors mean (fun x => linear_part all beta (input_value nan md val data t x)).
  Proof.
    apply (affine_sum factors mean all (fun g x => beta g * input_value nan md val data t x g)). intros g _.
    apply affine_ext with (g := fun x => beta g * input_value nan md val data t x g + 0 * 0); [intros; ring|].
    apply affine_comb; [apply input_affine|apply affine_const].
  Qed.

  Lemma plus_const_affine g c : is_affine factors mean g -> is_affine factors mean (fun x => g x + c).
  Proof.
    intros H. apply affine_ext with (g := fun x => 1 * g x + 1 * c); [intros; ring|]. apply affine_comb; [exact H|apply affine_const].
  Qed.
  Lemma plus_quadratic g h : is_quadratic factors mean g -> is_quadratic factors mean h -> is_quadratic factors mean (fun x => g x + h x).
  Proof.
    intros H H'. apply quadratic_ext with (g := fun x => 1 * g x + 1 * h x); [intros; ring|]. now apply quadratic_comb.
  Qed.
  Lemma scaled_product t c f g : is_quadratic factors mean
    (fun x => c * (input_value nan md val data t x f * input_value nan md val data t x g)).
  Proof.
    apply quadratic_ext with (g := fun x => c * (input_value nan md val data t x f * input_value nan md val data t x g) + 0 * 0); [intros; ring|].
    apply quadratic_comb; [|apply affine_quadratic, affine_const]. apply quadratic_prod; apply input_affine.
  Qed.

  Lemma square_part_quadratic t beta : is_quadratic factors mean (fun x => square_part all beta (input_value nan md val data t x)).
  Proof.
    apply (quadratic_sum factors mean all (fun g x => beta (g ++ " ** 2")%string *
      (input_value nan md val data t x g * input_value nan md val data t x g))). intros g _. apply scaled_product.
  Qed.
  Lemma interaction_part_quadratic t beta : is_quadratic factors mean (fun x => interaction_part all beta (input_value nan md val data t x)).
  Proof.
    apply (quadratic_sum factors mean (pairs_in_order all) (fun ab x => beta (fst ab ++ " * " ++ snd ab)%string *
      (input_value nan md val data t x (fst ab) * input_value nan md val data t x (snd ab)))). intros g _. apply scaled_product.
  Qed.

  Lemma documented_affine t beta own s (z : SpecQuadratic.point -> R) : affine_production s ->
    (forall x, documented all beta (input_value nan md val data t x) own s (z x)) -> is_affine factors mean z.
  Proof.
    intros [->| ->] D.
    - apply affine_ext with (g := fun x => linear_formula all beta (input_value nan md val data t x)).
      + intros x. specialize (D x). now inversion D.
      + apply plus_const_affine, linear_part_affine.
    - apply affine_ext with (g := fun x => input_value nan md val data t x own); [|apply input_affine].
      intros x. specialize (D x). now inversion D.
  Qed.

  Lemma documented_quadratic t beta own s (z : SpecQuadratic.point -> R) : quadratic_production s ->
    (forall x, documented all beta (input_value nan md val data t x) own s (z x)) -> is_quadratic factors mean z.
  Proof.
    intros [Ha|[->| ->]] D.
    - apply affine_quadratic. eapply documented_affine; eassumption.
    - apply quadratic_ext with (g := fun x => translog_formula all beta (input_value nan md val data t x)).
      + intros x. specialize (D x). now inversion D.
      + apply plus_quadratic; [|apply affine_quadratic, affine_const].
        apply (plus_quadratic (fun x => linear_part all beta (input_value nan md val data t x) + square_part all beta (input_value nan md val data t x)));
          [|apply interaction_part_quadratic].
        apply (plus_quadratic (fun x => linear_part all beta (input_value nan md val data t x)));
          [apply affine_quadratic, linear_part_affine|apply square_part_quadratic].
    - apply quadratic_ext with (g := fun x => squares_formula all beta (input_value nan md val data t x)).
      + intros x. specialize (D x). now inversion D.
      + apply plus_quadratic; [|apply affine_quadratic, affine_const].
        apply (plus_quadratic (fun x => linear_part all beta (input_value nan md val data t x)));
          [apply affine_quadratic, linear_part_affine|apply square_part_quadratic].
  Qed.

  Lemma next_affine t f s y : affine_production s -> next_value nan md val data t f s y -> is_affine factors mean y.
  Proof.
    intros Hs (z & D & Q).
    apply affine_ext with (g := fun x => / anchoring_scale md val (t + 1) f * z x + (- anchoring_constant md val (t + 1) f / anchoring_scale md val (t + 1) f) * 1).
    - intros x. rewrite Q. unfold Rdiv. ring.
    - apply affine_comb; [eapply documented_affine; eassumption|apply affine_const].
  Qed.
  Lemma next_quadratic t f s y : quadratic_production s -> next_value nan md val data t f s y -> is_quadratic factors mean y.
  Proof.
    intros Hs (z & D & Q).
    apply quadratic_ext with (g := fun x => / anchoring_scale md val (t + 1) f * z x + (- anchoring_constant md val (t + 1) f / anchoring_scale md val (t + 1) f) * 1).
    - intros x. rewrite Q. unfold Rdiv. ring.
    - apply quadratic_comb; [eapply documented_quadratic; eassumption|apply affine_quadratic, affine_const].
  Qed.
End Next.

(** ** One prediction step of a model *)

Section Step.
  Variable qr : qr_function.
  Hypothesis Hqr : correct_qr qr.
  Variables (nan neg_inf : R) (custom : string -> dict R -> dict R -> list R -> result R).
  Variables (md : model_dict) (p : processed) (n : nat) (df : frame R) (ids lv : list Z) (ar : arrays R)
    (params : list R) (ps : parsed R) (val : label -> R).
  Hypothesis Hcustom : total_custom custom.
  Hypothesis H : likelihood_setting md p n df ids lv ar params ps.
  Hypothesis Hval : parameter_values (params_index_of p) params val.
  Hypothesis Hclean : clean_anchoring md.
  Hypothesis Hord : anchored_in_order md.
  Hypothesis Hfit : observed_of md = [] \/ n_mixtures_of md = 1%nat.
  Let kappa := Q2R (o_sigma_points_scale (p_options p)).
  Hypothesis Hpos : 0 < INR (length (latent_of md)) + kappa.

  Let Hwf : wf_dicts md. Proof. apply H. Qed.
  Let Hp : process_model md = Ok p. Proof. apply H. Qed.
  Let Hn : has_n_periods md n. Proof. apply H. Qed.
  Let Hg : good_names md. Proof. apply H. Qed.
  Let Hlen : length params = length (params_index_of p). Proof. apply H. Qed.
  Let Hps : parse_for 0 1 ln p params (length ids) = Ok ps. Proof. apply H. Qed.
  Let inp := inputs_of ps ar.
  Let nl := length (latent_of md).
  Let no := length (observed_of md).
  Let all := latent_of md ++ observed_of md.
  Let tf := model_tfunc nan neg_inf custom md (p_labels p).

  Lemma tfunc_local c : local_transition nl (nl + no) (tf c).
  Proof.
    intros v w E f Hf. unfold tf, model_tfunc.
    assert (Ea : length (l_all (p_labels p)) = (nl + no)%nat).
    { unfold l_all. destruct (p_labels_eq md p Hp) as (-> & -> & _). apply app_length. }
    rewrite Ea, (map_ext_in v w); [reflexivity|]. intros k Hk. apply in_seq in Hk. apply E. lia.
  Qed.

  Lemma scale_constant t j f : (t < n)%nat -> nth_error all j = Some f ->
    in_scaling inp t j = anchoring_scale md val t f /\ in_constants inp t j = anchoring_constant md val t f.
  Proof.
    intros Ht Hj. destruct (anchoring_by_name md p n df ids lv ar params ps val H Hval Hclean Hord t j f Ht Hj) as [A B].
    unfold anchoring_scale, anchoring_constant. destruct (find (fun fo => String.eqb f (fst fo)) (outcomes_of md)) as [[g o]|] eqn:E.
    - apply find_some in E as [Hin E]. cbn [fst] in E. apply String.eqb_eq in E. subst g. exact (A o Hin).
    - apply B. intros o Hin. pose proof (find_none _ _ E _ Hin) as F. cbn [fst] in F. now rewrite String.eqb_refl in F.
  Qed.

  Lemma unanchored_observed t f : ~ In f (latent_of md) -> anchoring_scale md val t f = 1 /\ anchoring_constant md val t f = 0.
  Proof.
    intros Hf. unfold anchoring_scale, anchoring_constant. destruct (find (fun fo => String.eqb f (fst fo)) (outcomes_of md)) as [[g o]|] eqn:E.
    - apply find_some in E as [Hin E]. cbn [fst] in E. apply String.eqb_eq in E. subst g. destruct Hf. exact (proj1 Hclean f o Hin).
    - now split.
  Qed.

  Variables (t : nat) (b : belief).
  Hypothesis Ht : (t + 1 < n)%nat.

  Lemma image_next i id data m s j f fs str y :
    nth_error ids i = Some id -> individual_data md n df lv id data ->
    nth_error (latent_of md) j = Some f -> In (f, fs) (md_factors md) -> fs_transition fs = TStr str ->
    next_value nan md val data t f str y ->
    image nl (be_states b) (be_chols b) (sigma_scaling_factor nl kappa) (tf (in_coeffs inp t))
      (fun r => in_scaling inp (t + r)%nat) (fun r => in_constants inp (t + r)%nat)
      (fun i f => to_number nan (in_observed inp t i f)) i m s j
    = y (named_point (latent_of md) (be_states b i m) (be_chols b i m) kappa s).
  Proof.
    intros Hi Hdata Hj Hin Hs (z & D & ->). set (x := named_point _ _ _ _ _).
    assert (Hj' : nth_error all j = Some f).
    { unfold all. rewrite nth_error_app1; [exact Hj|]. apply nth_error_Some. congruence. }
    unfold image, anchored_transition.
    destruct (scale_constant (t + 1) j f Ht Hj') as [-> ->]. f_equal. f_equal.
    match goal with |- tf _ ?row j = _ => set (r := row) end.
    destruct (C57_model_transition nan neg_inf custom Hcustom md p n (length ids) params ps ar Hwf Hg Hp Hn Hlen Hps
      t j f fs r (fun x => val (CTransition, t, f, x)) (input_value nan md val data t x) Ht Hj Hin) as [A _].
    { intros q Hq. apply (proj1 Hval). apply (In_params_index md p _ Hwf Hp). now apply (par_transition md t n f fs). }
    2:{ fold inp in A. cbv zeta in A. unfold tf. apply (A str (z x) Hs). apply D. }
    intros k g Hk. unfold r. rewrite Nat.add_0_r. destruct (scale_constant t k g ltac:(lia) Hk) as [-> ->].
    assert (Hnd : NoDup all) by apply Hg.
    unfold input_value, all_factors. destruct (k <? nl)%nat eqn:Ek.
    - apply Nat.ltb_lt in Ek. rewrite nth_error_app1 in Hk by exact Ek.
      destruct (in_dec string_dec g (latent_of md)) as [_|F]; [|destruct F; eapply nth_error_In, Hk].
      unfold x. rewrite (named_at (latent_of md) _ _ _ (NoDup_app_l _ _ Hnd) k g s Hk). fold nl. ring.
    - apply Nat.ltb_ge in Ek. rewrite nth_error_app2 in Hk by exact Ek. fold nl in Hk.
      assert (F : ~ In g (latent_of md)).
      { intros F. apply In_nth_error in F as [k' Hk']. assert (Lk : (k' < nl)%nat) by (apply nth_error_Some; congruence).
        assert (Q : k' = k); [|lia]. apply (proj1 (NoDup_nth_error _) Hnd); unfold all.
        - rewrite app_length. fold nl. lia.
        - rewrite nth_error_app1, nth_error_app2 by (fold nl; lia). fold nl. congruence. }
      destruct (in_dec string_dec g (latent_of md)) as [F'|_]; [contradiction|].
      destruct (unanchored_observed t g F) as [-> ->].
      unfold inp. rewrite (observed_form md p n df ids lv ar params ps H (given_value md n df lv) ltac:(intros; apply given_handed) t ltac:(lia)).
      unfold oarr2, oarr1. rewrite (nth_of_nth_error _ _ _ _ (map_nth_error (fun id => map (given_value md n df lv id t) (observed_of md)) _ _ Hi)).
      rewrite (nth_of_nth_error _ _ _ _ (map_nth_error (given_value md n df lv id t) _ _ Hk)).
      assert (Eg : data t g = given_value md n df lv id t g).
      { apply (handed_given md n df ids lv (given_value md n df lv) ltac:(intros; apply given_handed) id t g); [eapply nth_error_In, Hi|lia|].
        apply Hdata. lia. }
      rewrite Eg. ring.
  Qed.

  (** The predicted means and covariances are those of the sigma points' images. *)
  Lemma step_ok : exists b',
    transition_event qr nan tf (length ids) (n_mixtures (p_dims p)) (n_latent (p_dims p)) (n_observed (p_dims p)) kappa inp t b = Ok b' /\
    be_logw b' = be_logw b /\
    forall i id data m, nth_error ids i = Some id -> individual_data md n df lv id data -> (m < n_mixtures_of md)%nat ->
    forall j f fs s y, nth_error (latent_of md) j = Some f -> In (f, fs) (md_factors md) -> fs_transition fs = TStr s ->
      next_value nan md val data t f s y ->
      let A := sigma_expectation (latent_of md) (be_states b i m) (be_chols b i m) kappa in
      be_states b' i m j = A y /\
      (0 <= kappa -> forall k g gs s' y', nth_error (latent_of md) k = Some g -> In (g, gs) (md_factors md) ->
         fs_transition gs = TStr s' -> next_value nan md val data t g s' y' ->
         cov nl (be_chols b' i m) j k
         = A (fun x => (y x - A y) * (y' x - A y'))
           + if Nat.eq_dec j k then val (CShockSds, t, f, "-"%string) * val (CShockSds, t, f, "-"%string) else 0).
  Proof.
    destruct (p_dims_eq md p Hp) as (-> & -> & _ & -> & _). fold nl no.
    assert (Hshape : no = O \/ n_mixtures_of md = 1%nat) by (destruct Hfit as [E|E]; [left; unfold no; now rewrite E|now right]).
    destruct (predict_ok qr Hqr (length ids) (n_mixtures_of md) nl no (be_states b) (be_chols b) (sigma_scaling_factor nl kappa)
      (sigma_weights nl kappa) (tf (in_coeffs inp t)) (in_shock_sds inp t) (fun r => in_scaling inp (t + r)%nat)
      (fun r => in_constants inp (t + r)%nat) (fun i f => to_number nan (in_observed inp t i f)) (tfunc_local _) Hshape) as (st & ch & E & P).
    eexists. split; [unfold transition_event; rewrite E; reflexivity|]. cbn [be_logw be_states be_chols fst snd]. split; [reflexivity|].
    intros i id data m Hi Hdata Hm j f fs s y Hj Hin Hs Hy. cbv zeta. destruct (P i m Hm) as (P1 & _ & P2).
    assert (Lj : (j < nl)%nat) by (apply nth_error_Some; congruence).
    pose proof (fun s0 => image_next i id data m s0 j f fs s y Hi Hdata Hj Hin Hs Hy) as Q.
    assert (M : forall j f fs s y, nth_error (latent_of md) j = Some f -> In (f, fs) (md_factors md) -> fs_transition fs = TStr s ->
      next_value nan md val data t f s y ->
      weighted_mean (2 * nl + 1) (sigma_weights nl kappa) (fun s => image nl (be_states b) (be_chols b) (sigma_scaling_factor nl kappa) (tf (in_coeffs inp t))
        (fun r => in_scaling inp (t + r)%nat) (fun r => in_constants inp (t + r)%nat) (fun i f => to_number nan (in_observed inp t i f)) i m s j)
      = sigma_expectation (latent_of md) (be_states b i m) (be_chols b i m) kappa y).
    { clear j f fs s y Hj Hin Hs Hy Lj Q. intros j f fs s y Hj Hin Hs Hy. unfold weighted_mean, sigma_expectation. fold nl. apply rsum_ext.
      intros s0 _. f_equal. now apply (image_next i id data m s0 j f fs s y). }
    split; [rewrite P1 by exact Lj; now apply (M j f fs s y)|].
    intros Hk0 k g gs s' y' Hk Hin' Hs' Hy'. assert (Lk : (k < nl)%nat) by (apply nth_error_Some; congruence).
    rewrite (P2 (fun s0 _ => weights_nonneg nl kappa s0 Hk0 Hpos) j k Lj Lk). f_equal.
    - unfold weighted_scatter. rewrite (M j f fs s y Hj Hin Hs Hy), (M k g gs s' y' Hk Hin' Hs' Hy').
      unfold sigma_expectation at 3. fold nl. apply rsum_ext. intros s0 _.
      rewrite (Q s0), (image_next i id data m s0 k g gs s' y' Hi Hdata Hk Hin' Hs' Hy'). reflexivity.
    - destruct (Nat.eq_dec j k) as [<-|_]; [|reflexivity].
      unfold inp. rewrite (shock_form md p n df ids lv ar params ps val H Hval t Ht). unfold arr1.
      now rewrite (nth_of_nth_error _ _ _ _ (map_nth_error (fun f => val (CShockSds, t, f, "-"%string)) _ _ Hj)).
  Qed.
End Step.

(** * C105 *)

(** The predicted means are exact: in each mixture element, the predicted mean of a factor
    with a linear, constant, translog or linear_and_squares production function is the
    expectation of the factor's next value under EVERY distribution of the current factors
    that has the mean and covariance the filter holds. *)
Theorem C105_exact_means :
  forall qr, correct_qr qr ->
  forall nan neg_inf custom md p n df ids lv ar params ps val,
    total_custom custom -> likelihood_setting md p n df ids lv ar params ps ->
    parameter_values (params_index_of p) params val ->
    clean_anchoring md -> anchored_in_order md ->
    observed_of md = [] \/ n_mixtures_of md = 1%nat ->
    let kappa := Q2R (o_sigma_points_scale (p_options p)) in
    let nl := length (latent_of md) in
    0 < INR nl + kappa ->
    forall t b, (t + 1 < n)%nat ->
    exists b',
      transition_event qr nan (model_tfunc nan neg_inf custom md (p_labels p)) (length ids) (n_mixtures (p_dims p))
        (n_latent (p_dims p)) (n_observed (p_dims p)) kappa (inputs_of ps ar) t b = Ok b' /\
      be_logw b' = be_logw b /\
      forall i id data m integrable E,
        nth_error ids i = Some id -> individual_data md n df lv id data -> (m < n_mixtures_of md)%nat ->
        expectation integrable E ->
        first_two_moments (latent_of md) integrable E (be_states b i m) (cov nl (be_chols b i m)) ->
        forall j f fs s y,
          nth_error (latent_of md) j = Some f -> In (f, fs) (md_factors md) -> fs_transition fs = TStr s ->
          quadratic_production s -> next_value nan md val data t f s y ->
          integrable y /\ be_states b' i m j = E y.
Proof.
  intros qr Hqr nan neg_inf custom md p n df ids lv ar params ps val Hcustom H Hval Hclean Hord Hfit kappa nl Hpos t b Ht.
  destruct (step_ok qr Hqr nan neg_inf custom md p n df ids lv ar params ps val Hcustom H Hval Hclean Hord Hfit Hpos t b Ht) as (b' & E1 & E2 & S).
  exists b'. split; [exact E1|]. split; [exact E2|].
  intros i id data m I E Hi Hdata Hm HE Hmom j f fs s y Hj Hin Hs Hq Hy.
  destruct (S i id data m Hi Hdata Hm j f fs s y Hj Hin Hs Hy) as [-> _].
  assert (Hnd : NoDup (latent_of md)) by (apply (NoDup_app_l _ (observed_of md)), H).
  destruct (same_expectation (latent_of md) (be_states b i m) (cov nl (be_chols b i m)) I everything E _ HE
    (sigma_is_expectation (latent_of md) (be_states b i m) (be_chols b i m) kappa Hpos) Hmom
    (sigma_moments (latent_of md) (be_states b i m) (be_chols b i m) kappa Hnd Hpos) y) as [A B].
  { eapply next_quadratic; eassumption. }
  split; [exact A|now symmetry].
Qed.
Print Assumptions C105_exact_means.

(** * C106 *)

(** The predicted covariance of two factors is exact if one of the two production functions
    is linear or constant and the other one is linear, constant, translog or
    linear_and_squares, for every distribution that has the mean and covariance the filter
    holds and no third central moments. With one latent factor and the default sigma points
    (scale 2), it is also exact for a translog or linear_and_squares production function if
    the fourth moments are those of the normal distribution.

    Missing: two factors (or more) with translog or linear_and_squares production functions;
    see [C106_refuted]. *)
Theorem C106_exact_covariances_partial :
  forall qr, correct_qr qr ->
  forall nan neg_inf custom md p n df ids lv ar params ps val,
    total_custom custom -> likelihood_setting md p n df ids lv ar params ps ->
    parameter_values (params_index_of p) params val ->
    clean_anchoring md -> anchored_in_order md ->
    observed_of md = [] \/ n_mixtures_of md = 1%nat ->
    let kappa := Q2R (o_sigma_points_scale (p_options p)) in
    let nl := length (latent_of md) in
    0 <= kappa -> 0 < INR nl + kappa ->
    forall t b, (t + 1 < n)%nat ->
    exists b',
      transition_event qr nan (model_tfunc nan neg_inf custom md (p_labels p)) (length ids) (n_mixtures (p_dims p))
        (n_latent (p_dims p)) (n_observed (p_dims p)) kappa (inputs_of ps ar) t b = Ok b' /\
      forall i id data m integrable E,
        nth_error ids i = Some id -> individual_data md n df lv id data -> (m < n_mixtures_of md)%nat ->
        expectation integrable E ->
        first_two_moments (latent_of md) integrable E (be_states b i m) (cov nl (be_chols b i m)) ->
        no_third_moments (latent_of md) integrable E (be_states b i m) ->
        forall j f fs s y k g gs s' y',
          nth_error (latent_of md) j = Some f -> In (f, fs) (md_factors md) -> fs_transition fs = TStr s ->
          next_value nan md val data t f s y ->
          nth_error (latent_of md) k = Some g -> In (g, gs) (md_factors md) -> fs_transition gs = TStr s' ->
          next_value nan md val data t g s' y' ->
          quadratic_production s ->
          affine_production s' \/
            nl = 1%nat /\ kappa = 2 /\ quadratic_production s' /\
            normal_fourth_moments (latent_of md) integrable E (be_states b i m) (cov nl (be_chols b i m)) ->
          let shock := val (CShockSds, t, f, "-"%string) in
          let covariance := E (fun x => (y x - E y) * (y' x - E y')) + if Nat.eq_dec j k then shock * shock else 0 in
          integrable (fun x => (y x - E y) * (y' x - E y')) /\
          cov nl (be_chols b' i m) j k = covariance /\ cov nl (be_chols b' i m) k j = covariance.
Proof.
  intros qr Hqr nan neg_inf custom md p n df ids lv ar params ps val Hcustom H Hval Hclean Hord Hfit kappa nl Hk0 Hpos t b Ht.
  destruct (step_ok qr Hqr nan neg_inf custom md p n df ids lv ar params ps val Hcustom H Hval Hclean Hord Hfit Hpos t b Ht) as (b' & E1 & E2 & S).
  exists b'. split; [exact E1|].
  intros i id data m I E Hi Hdata Hm HE Hmom H3 j f fs s y k g gs s' y' Hj Hin Hs Hy Hk Hin' Hs' Hy' Hq Hcase shock covariance.
  destruct (S i id data m Hi Hdata Hm j f fs s y Hj Hin Hs Hy) as [_ C]. specialize (C Hk0 k g gs s' y' Hk Hin' Hs' Hy'). cbv zeta in C.
  assert (Hnd : NoDup (latent_of md)) by (apply (NoDup_app_l _ (observed_of md)), H).
  set (A := sigma_expectation (latent_of md) (be_states b i m) (be_chols b i m) kappa) in *.
  assert (HA : expectation everything A) by now apply sigma_is_expectation.
  assert (HA2 : first_two_moments (latent_of md) everything A (be_states b i m) (cov nl (be_chols b i m))) by now apply sigma_moments.
  assert (HA3 : no_third_moments (latent_of md) everything A (be_states b i m)) by now apply sigma_third.
  assert (Qy : is_quadratic (latent_of md) (be_states b i m) y) by (eapply next_quadratic; eassumption).
  assert (Main : I (fun x => (y x - E y) * (y' x - E y')) /\ E (fun x => (y x - E y) * (y' x - E y')) = A (fun x => (y x - A y) * (y' x - A y'))).
  { destruct Hcase as [Ha|(N1 & K2 & Hq' & H4)].
    - assert (Ay' : is_affine (latent_of md) (be_states b i m) y') by (eapply next_affine; eassumption).
      destruct (same_covariance (latent_of md) (be_states b i m) (cov nl (be_chols b i m)) I everything E A HE HA Hmom HA2 H3 HA3 y' y Ay' Qy) as [M1 M2].
      destruct (E_ext I E HE _ (fun x => (y x - E y) * (y' x - E y')) M1 ltac:(intros; cbv beta; ring)) as [M3 M4].
      split; [exact M3|]. rewrite M4, M2. apply (E_ext everything A HA); [exact Logic.I|]. intros; ring.
    - assert (Qy' : is_quadratic (latent_of md) (be_states b i m) y') by (eapply next_quadratic; eassumption).
      apply (same_covariance_one (latent_of md) (be_states b i m) (cov nl (be_chols b i m)) I everything E A HE HA Hmom HA2 H3 HA3 N1 H4);
        [|exact Qy|exact Qy']. unfold A. rewrite K2. now apply sigma_fourth_moments. }
  destruct Main as [M1 M2]. split; [exact M1|]. unfold covariance. rewrite M2. split; [exact C|].
  refine (eq_trans _ C). unfold cov. apply rsum_ext. intros; ring.
Qed.
Print Assumptions C106_exact_covariances_partial.


(** ** A product of two factors *)

(** Two independent factors with mean 0 and variance 1. *)
Definition standard_belief : belief :=
  mk_belief (fun _ _ _ => 0) (fun _ _ r c => if (r =? c)%nat then 1 else 0) (fun _ _ => 0).
Definition product (x : SpecQuadratic.point) : R := x "cog"%string * x "soc"%string.

Lemma standard_cov a b : (a < 2)%nat -> (b < 2)%nat -> cov 2 (be_chols standard_belief O O) a b = if (a =? b)%nat then 1 else 0.
Proof. destruct a as [|[|]], b as [|[|]]; intros; try lia; unfold cov; cbn; ring. Qed.

(** The variance of the product is 1 under every distribution with the moments of the
    normal distribution. *)
Lemma product_variance I E :
  expectation I E ->
  first_two_moments ["cog"; "soc"]%string I E (be_states standard_belief O O) (cov 2 (be_chols standard_belief O O)) ->
  normal_fourth_moments ["cog"; "soc"]%string I E (be_states standard_belief O O) (cov 2 (be_chols standard_belief O O)) ->
  E product = 0 /\ E (fun x => (product x - E product) * (product x - E product)) = 1.
Proof.
  intros HE [_ M2] M4.
  assert (E0 : E product = 0).
  { destruct (M2 0%nat "cog"%string 1%nat "soc"%string eq_refl eq_refl) as [A B].
    destruct (E_ext I E HE _ product A) as [_ ->]; [intros x; unfold product; cbn [be_states standard_belief]; ring|].
    rewrite B. now rewrite standard_cov by lia. }
  split; [exact E0|]. rewrite E0.
  destruct (M4 0%nat "cog"%string 1%nat "soc"%string 0%nat "cog"%string 1%nat "soc"%string eq_refl eq_refl eq_refl eq_refl) as [A B].
  destruct (E_ext I E HE _ (fun x => (product x - 0) * (product x - 0)) A) as [_ ->];
    [intros x; unfold product; cbn [be_states standard_belief]; ring|].
  rewrite B, !standard_cov by lia. cbn [Nat.eqb]. ring.
Qed.

(** Such a distribution: each factor is 0 with probability 4/6 and plus or minus the
    square root of 3 with probability 1/6 each. *)
Definition three (h : R -> R) : R := 4 * / 6 * h 0 + / 6 * h (sqrt 3) + / 6 * h (- sqrt 3).
Definition nine (g : SpecQuadratic.point -> R) : R :=
  three (fun a => three (fun b => g (fun f => if String.eqb f "cog" then a else if String.eqb f "soc" then b else 0))).

Lemma nine_moments :
  expectation everything nine /\
  first_two_moments ["cog"; "soc"]%string everything nine (be_states standard_belief O O) (cov 2 (be_chols standard_belief O O)) /\
  no_third_moments ["cog"; "soc"]%string everything nine (be_states standard_belief O O) /\
  normal_fourth_moments ["cog"; "soc"]%string everything nine (be_states standard_belief O O) (cov 2 (be_chols standard_belief O O)).
Proof.
  assert (S3 : sqrt 3 * sqrt 3 = 3) by (apply sqrt_sqrt; lra).
  assert (S6 : 6 * / 6 = 1) by field.
  assert (Two : forall j f, nth_error ["cog"; "soc"]%string j = Some f -> j = O /\ f = "cog"%string \/ j = 1%nat /\ f = "soc"%string).
  { intros [|[|j]] f Hj; cbn in Hj; [injection Hj as <-; now left|injection Hj as <-; now right|destruct j; discriminate]. }
  split; [|split; [|split]].
  - unfold expectation, everything, nine, three. split; [split; [exact Logic.I|lra]|]. split.
    + intros a b g h _ _. split; [exact Logic.I|]. ring.
    + intros g h Q _. split; [exact Logic.I|]. now rewrite !Q.
  - split.
    + intros j f Hj. split; [exact Logic.I|]. apply Two in Hj as [[-> ->]|[-> ->]]; unfold nine, three; cbn; ring.
    + intros j f k g Hj Hk. split; [exact Logic.I|]. apply Two in Hj as [[-> ->]|[-> ->]], Hk as [[-> ->]|[-> ->]];
        rewrite standard_cov by lia; unfold nine, three; cbn; set (s := sqrt 3) in *; set (c := / 6) in *; clearbody s c; nsatz.
  - intros j f k g l h Hj Hk Hl. split; [exact Logic.I|].
    apply Two in Hj as [[-> ->]|[-> ->]], Hk as [[-> ->]|[-> ->]], Hl as [[-> ->]|[-> ->]]; unfold nine, three; cbn; ring.
  - intros j f k g l h r q Hj Hk Hl Hr. split; [exact Logic.I|].
    apply Two in Hj as [[-> ->]|[-> ->]], Hk as [[-> ->]|[-> ->]], Hl as [[-> ->]|[-> ->]], Hr as [[-> ->]|[-> ->]];
      rewrite !standard_cov by lia; unfold nine, three; cbn; set (s := sqrt 3) in *; set (c := / 6) in *; clearbody s c; nsatz.
Qed.

(** A model in which the first factor becomes the product of the two factors. *)
Definition product_model (md : model_dict) (val : label -> R) : Prop :=
  latent_of md = ["cog"; "soc"]%string /\ observed_of md = ["inc"]%string /\
  (forall f, f = "cog"%string \/ f = "soc"%string -> anchoring_scale md val 0 f = 1 /\ anchoring_constant md val 0 f = 0) /\
  anchoring_scale md val 1 "cog"%string = 1 /\ anchoring_constant md val 1 "cog"%string = 0 /\
  (forall name, In name ["cog"; "soc"; "inc"; "cog ** 2"; "soc ** 2"; "inc ** 2"; "cog * inc"; "soc * inc"; "constant"]%string ->
     val (CTransition, 0%nat, "cog"%string, name) = 0) /\
  val (CTransition, 0%nat, "cog"%string, "cog * soc"%string) = 1.

Lemma product_next nan md val data : product_model md val ->
  next_value nan md val data 0 "cog" "translog" product /\
  forall y, next_value nan md val data 0 "cog" "translog" y -> forall x, y x = product x.
Proof.
  intros (L & O & A & S1 & C1 & Z & U).
  assert (F : forall x, translog_formula (latent_of md ++ observed_of md) (fun name => val (CTransition, 0%nat, "cog"%string, name))
                (input_value nan md val data 0 x) = product x).
  { intros x. rewrite L, O. cbn [app]. unfold translog_formula, linear_part, square_part, interaction_part.
    cbn -[input_value String.append]. cbn [String.append].
    rewrite U, !Z by (cbn; tauto).
    assert (V : forall f, f = "cog"%string \/ f = "soc"%string -> input_value nan md val data 0 x f = x f).
    { intros f Hf. unfold input_value. destruct (in_dec string_dec f (latent_of md)) as [_|N].
      - destruct (A f Hf) as [-> ->]. ring.
      - destruct N. rewrite L. destruct Hf as [->| ->]; cbn; tauto. }
    rewrite !V by tauto. unfold product. ring. }
  split.
  - exists product. split; [|intros x; rewrite Nat.add_0_l, S1, C1; field]. intros x. rewrite <- F. constructor.
  - intros y (z & D & Q) x. rewrite Q, Nat.add_0_l, S1, C1. specialize (D x). inversion D. rewrite F. field.
Qed.

Lemma product_sigma : 
  let A := sigma_expectation ["cog"; "soc"]%string (be_states standard_belief O O) (be_chols standard_belief O O) 2 in
  A product = 0 /\ A (fun x => (product x - A product) * (product x - A product)) = 0.
Proof.
  cbv zeta.
  assert (Hnd : NoDup ["cog"; "soc"]%string) by (repeat constructor; cbn; intuition discriminate).
  assert (P : forall s, (s < 5)%nat -> product (named_point ["cog"; "soc"]%string (be_states standard_belief O O) (be_chols standard_belief O O) 2 s) = 0).
  { intros s Hs. unfold product.
    rewrite (named_at _ _ _ _ Hnd 0 "cog"%string s eq_refl), (named_at _ _ _ _ Hnd 1 "soc"%string s eq_refl). cbn [length].
    destruct s as [|[|[|[|[|]]]]]; [| | | | |lia]; unfold sigma_point; cbn; ring. }
  assert (Z : sigma_expectation ["cog"; "soc"]%string (be_states standard_belief O O) (be_chols standard_belief O O) 2 product = 0).
  { unfold sigma_expectation. apply rsum_zero. intros s Hs. rewrite P by (cbn in Hs; lia). ring. }
  split; [exact Z|]. rewrite Z. unfold sigma_expectation. apply rsum_zero. intros s Hs. rewrite P by (cbn in Hs; lia). ring.
Qed.

Definition cross_value (lb : label) : R :=
  match lb with
  | (CTransition, _, f, name) => if String.eqb f "cog" && String.eqb name "cog * soc" then 1 else 0
  | (CControls, _, _, _) => 0
  | _ => 1
  end.
Definition cross_params : list R := map cross_value (params_index_of kept_p).
Definition cross_val : label -> R := val_of 0 (params_index_of kept_p) cross_params.

Lemma kept_NoDup : NoDup (params_index_of kept_p).
Proof. apply (idx_NoDup kept_model kept_p); [apply kept_setting|exact kept_good_names|exact kept_model_accepted]. Qed.

Lemma cross_at lb b : label_mem lb (params_index_of kept_p) = b -> b = true -> cross_val lb = cross_value lb.
Proof. intros E Eb. exact (val_of_values (params_index_of kept_p) cross_value lb kept_NoDup (proj1 (label_mem_In lb _) (eq_trans E Eb))). Qed.

Lemma cross_product_model : product_model kept_model cross_val.
Proof.
  split; [reflexivity|]. split; [reflexivity|].
  assert (M : forall md val, outcomes_of md = [("cog", "Q1"); ("soc", "Q2")]%string -> ignores_constant md = false ->
    (forall t, (t < 2)%nat -> forall f o, In (f, o) [("cog", "Q1"); ("soc", "Q2")]%string ->
       val (CLoadings, t, (o ++ "_" ++ f)%string, f) = 1 /\ val (CControls, t, (o ++ "_" ++ f)%string, "constant"%string) = 0) ->
    forall t f, (t < 2)%nat -> f = "cog"%string \/ f = "soc"%string -> anchoring_scale md val t f = 1 /\ anchoring_constant md val t f = 0).
  { intros md val Ho Hi Hv t f Ht Hf. unfold anchoring_scale, anchoring_constant. rewrite Ho, Hi. destruct Hf as [->| ->]; cbn [find fst snd String.eqb Ascii.eqb Bool.eqb].
    - exact (Hv t Ht "cog" "Q1" (or_introl eq_refl))%string.
    - exact (Hv t Ht "soc" "Q2" (or_intror (or_introl eq_refl)))%string. }
  assert (A : forall t f, (t < 2)%nat -> f = "cog"%string \/ f = "soc"%string ->
     anchoring_scale kept_model cross_val t f = 1 /\ anchoring_constant kept_model cross_val t f = 0).
  { apply (M kept_model cross_val); [vm_compute; reflexivity|vm_compute; reflexivity|].
    intros t Ht f o [[= <- <-]|[[= <- <-]|[]]]; destruct t as [|[|t]]; try (exfalso; lia);
      (split; (refine (eq_trans (cross_at _ _ _ eq_refl) _); [vm_compute; reflexivity|reflexivity])). }
  split; [intros f Hf; exact (A 0%nat f ltac:(lia) Hf)|]. split; [exact (proj1 (A 1%nat "cog"%string ltac:(lia) (or_introl eq_refl)))|]. split; [exact (proj2 (A 1%nat "cog"%string ltac:(lia) (or_introl eq_refl)))|].
  split.
  - intros name Hn. cbn [In] in Hn.
    repeat (destruct Hn as [<-|Hn]; [refine (eq_trans (cross_at _ _ _ eq_refl) _); [vm_compute; reflexivity|reflexivity]|]). destruct Hn.
  - refine (eq_trans (cross_at _ _ _ eq_refl) _); [vm_compute; reflexivity|reflexivity].
Qed.

Lemma cross_example : exists ar ps, likelihood_setting kept_model kept_p 3 (real_frame ex_df) ex_ids ex_lv ar cross_params ps.
Proof.
  destruct (any_example kept_model kept_p 3 ex_df ex_ids ex_lv
    (get_ok (process_data 1%Z Z.eqb ex_df (p_labels kept_p) (p_update kept_p) (p_anch kept_p) true) ex_arrays) cross_value
    kept_setting kept_good_names kept_clean) as (ar & ps & H).
  { lia. } { apply Nat.leb_le. reflexivity. } { vm_compute. reflexivity. }
  exists ar, ps. exact H.
Qed.

Lemma cross_kappa : Q2R (o_sigma_points_scale (p_options kept_p)) = 2.
Proof. change (Q2R (2 # 1) = 2). unfold Q2R. cbn. field. Qed.

Definition first_individual : nat -> string -> option R := given_value kept_model 3 (real_frame ex_df) ex_lv (nth 0 ex_ids 0%Z).
Lemma first_individual_data : individual_data kept_model 3 (real_frame ex_df) ex_lv (nth 0 ex_ids 0%Z) first_individual.
Proof. intros t x _. apply given_handed. Qed.

(** Everything the two theorems assume, for a model in which the first factor becomes the
    product of the two factors and the second one stays constant, and for a distribution of
    two independent factors. *)
Example C105_C106_nonvacuous : exists ar ps integrable E cog soc,
  total_custom plain_custom /\
  likelihood_setting kept_model kept_p 3 (real_frame ex_df) ex_ids ex_lv ar cross_params ps /\
  parameter_values (params_index_of kept_p) cross_params cross_val /\
  clean_anchoring kept_model /\ anchored_in_order kept_model /\ n_mixtures_of kept_model = 1%nat /\
  Q2R (o_sigma_points_scale (p_options kept_p)) = 2 /\
  individual_data kept_model 3 (real_frame ex_df) ex_lv (nth 0 ex_ids 0%Z) first_individual /\
  expectation integrable E /\
  first_two_moments (latent_of kept_model) integrable E (be_states standard_belief O O) (cov 2 (be_chols standard_belief O O)) /\
  no_third_moments (latent_of kept_model) integrable E (be_states standard_belief O O) /\
  normal_fourth_moments (latent_of kept_model) integrable E (be_states standard_belief O O) (cov 2 (be_chols standard_belief O O)) /\
  md_factors kept_model = [("cog"%string, cog); ("soc"%string, soc)] /\
  fs_transition cog = TStr "translog" /\ quadratic_production "translog" /\
  fs_transition soc = TStr "constant" /\ affine_production "constant" /\
  next_value 0 kept_model cross_val first_individual 0 "cog" "translog" product.
Proof.
  destruct cross_example as (ar & ps & H). destruct nine_moments as (N1 & N2 & N3 & N4).
  exists ar, ps, everything, nine. eexists _, _.
  split. { intros f params env states. unfold plain_custom. destruct (dget params "q"), (dget env "inc"); eauto. }
  split; [exact H|]. split; [exact (values_ok _ cross_value kept_NoDup)|]. split; [exact kept_clean|]. split; [exact kept_in_order|].
  split; [reflexivity|]. split; [exact cross_kappa|]. split; [exact first_individual_data|].
  split; [exact N1|]. split; [exact N2|]. split; [exact N3|]. split; [exact N4|]. split; [reflexivity|]. split; [reflexivity|].
  split; [right; now left|]. split; [reflexivity|]. split; [now right|].
  apply product_next, cross_product_model.
Qed.

(** The covariances are not exact for all quadratic production functions: if a factor
    becomes the product of two independent factors, the filter predicts that it has no
    variance besides the shocks, whereas the variance is 1 under every distribution with the
    moments of the normal distribution. *)
Theorem C106_refuted :
  forall qr, correct_qr qr -> forall nan neg_inf,
  exists ar ps b',
    likelihood_setting kept_model kept_p 3 (real_frame ex_df) ex_ids ex_lv ar cross_params ps /\
    parameter_values (params_index_of kept_p) cross_params cross_val /\
    clean_anchoring kept_model /\ anchored_in_order kept_model /\
    transition_event qr nan (model_tfunc nan neg_inf plain_custom kept_model (p_labels kept_p)) (length ex_ids) (n_mixtures (p_dims kept_p))
      (n_latent (p_dims kept_p)) (n_observed (p_dims kept_p)) (Q2R (o_sigma_points_scale (p_options kept_p)))
      (inputs_of ps ar) 0 standard_belief = Ok b' /\
    (exists fs, In ("cog"%string, fs) (md_factors kept_model) /\ fs_transition fs = TStr "translog") /\
    let shock := cross_val (CShockSds, 0%nat, "cog"%string, "-"%string) in
    shock = 1 /\ cov 2 (be_chols b' O O) O O = 1 /\
    forall integrable E,
      expectation integrable E ->
      first_two_moments (latent_of kept_model) integrable E (be_states standard_belief O O) (cov 2 (be_chols standard_belief O O)) ->
      normal_fourth_moments (latent_of kept_model) integrable E (be_states standard_belief O O) (cov 2 (be_chols standard_belief O O)) ->
      forall y, next_value nan kept_model cross_val first_individual 0 "cog" "translog" y ->
        E (fun x => (y x - E y) * (y x - E y)) + shock * shock = 2.
Proof.
  intros qr Hqr nan neg_inf. destruct cross_example as (ar & ps & H).
  assert (Hc : total_custom plain_custom).
  { intros f params env states. unfold plain_custom. destruct (dget params "q"), (dget env "inc"); eauto. }
  assert (Hpos : 0 < INR (length (latent_of kept_model)) + Q2R (o_sigma_points_scale (p_options kept_p))).
  { rewrite cross_kappa. change (0 < INR 2 + 2). cbn. lra. }
  destruct (step_ok qr Hqr nan neg_inf plain_custom kept_model kept_p 3 (real_frame ex_df) ex_ids ex_lv ar cross_params ps cross_val Hc H
    (values_ok _ cross_value kept_NoDup) kept_clean kept_in_order (or_intror eq_refl) Hpos 0 standard_belief ltac:(lia)) as (b' & E1 & _ & S).
  exists ar, ps, b'. split; [exact H|]. split; [exact (values_ok _ cross_value kept_NoDup)|]. split; [exact kept_clean|]. split; [exact kept_in_order|].
  split; [exact E1|]. split; [eexists; split; [left; reflexivity|reflexivity]|]. cbv zeta.
  assert (Sh : cross_val (CShockSds, 0%nat, "cog"%string, "-"%string) = 1).
  { refine (eq_trans (cross_at _ _ _ eq_refl) _); [vm_compute; reflexivity|reflexivity]. }
  split; [exact Sh|].
  destruct (product_next nan kept_model cross_val first_individual cross_product_model) as [Hy Hu].
  destruct product_sigma as [P1 P2].
  split.
  - pose proof (S 0%nat (nth 0 ex_ids 0%Z) first_individual 0%nat eq_refl first_individual_data ltac:(apply Nat.ltb_lt; reflexivity)
      0%nat "cog"%string _ "translog"%string product eq_refl (or_introl eq_refl) eq_refl Hy) as [_ C].
    specialize (C ltac:(rewrite cross_kappa; lra) 0%nat "cog"%string _ "translog"%string product eq_refl (or_introl eq_refl) eq_refl Hy).
    rewrite cross_kappa in C. refine (eq_trans C _). rewrite Sh. cbn [Nat.eq_dec].
    refine (eq_trans (f_equal (fun v => v + 1 * 1) P2) _). ring.
  - intros I E HE M2 M4 y Hy'. destruct (product_variance I E HE M2 M4) as [V1 V2].
    assert (I1 : I product).
    { destruct (proj2 M2 0%nat "cog"%string 1%nat "soc"%string eq_refl eq_refl) as [A B].
      apply (E_ext I E HE _ product A). intros x. unfold product. cbn [be_states standard_belief]. ring. }
    destruct (E_ext I E HE product y I1 (fun x => eq_sym (Hu y Hy' x))) as [_ Ey].
    destruct (M4 0%nat "cog"%string 1%nat "soc"%string 0%nat "cog"%string 1%nat "soc"%string eq_refl eq_refl eq_refl eq_refl) as [A _].
    destruct (E_ext I E HE _ (fun x => (product x - E product) * (product x - E product)) A) as [A' _];
      [intros x; rewrite V1; unfold product; cbn [be_states standard_belief]; ring|].
    destruct (E_ext I E HE _ (fun x => (y x - E y) * (y x - E y)) A') as [_ ->]; [intros x; rewrite Ey, (Hu y Hy' x); reflexivity|].
    rewrite V2, Sh. ring.
Qed.
Print Assumptions C106_refuted.
