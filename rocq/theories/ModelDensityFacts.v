(** The density of a linear model by label is the density in terms of the inputs of the
    filter. *)
From Coquelicot Require Import Coquelicot.
Require Import Reals Qreals String Arith ZArith Bool List Lia Lra.
From Verif Require Import PyBase ListFacts ModelSpec ProcessModel CheckModel SpecModel ProcessModelFacts
  SpecParse SpecIndex IndexFacts ParamsIndex ParseParams ParamsVec PropsSpec PropsParse ProcessData SpecData PropsData
  RSum Kalman SpecKalman KalmanFacts Clipping Likelihood SpecLikelihood ScheduleFacts LikelihoodRun PropsKalman
  PropsLikelihood PropsFiltered TransitionFunctions SpecTransition TransitionFacts PropsTransition SpecGaussian GaussianFacts
  SpecStateSpace StateSpaceFacts SpecModelDensity.
Import ListNotations.
Open Scope R_scope.

Lemma sum_of_rsum {A} (d : A) l f : sum_of l f = rsum (length l) (fun j => f (nth j l d)).
Proof.
  induction l as [|a l IH]; [reflexivity|]. cbn [sum_of length]. rewrite rsum_S_l, IH. reflexivity.
Qed.

Lemma rprod_S_l n f : rprod (S n) f = f O * rprod n (fun i => f (S i)).
Proof. induction n as [|n IH]; cbn [rprod] in *; [ring|]. rewrite IH. ring. Qed.

Lemma prod_list_rprod {A} (d : A) l f : prod_list (map f l) = rprod (length l) (fun j => f (nth j l d)).
Proof.
  induction l as [|a l IH]; [reflexivity|]. cbn [map length]. rewrite rprod_S_l.
  unfold prod_list in *. cbn [fold_right]. now rewrite IH.
Qed.

Lemma position_nth l f j : NoDup l -> nth_error l j = Some f -> position f l = Some j.
Proof.
  revert j. induction l as [|g l IH]; intros [|j] Hnd H; try discriminate; cbn [nth_error position] in *.
  - injection H as ->. now rewrite String.eqb_refl.
  - inversion_clear Hnd as [|? ? N D]. destruct (String.eqb_spec f g) as [->|_].
    + destruct N. eapply nth_error_In, H.
    + now rewrite (IH j D H).
Qed.

Lemma position_none l f : ~ In f l -> position f l = None.
Proof.
  induction l as [|g l IH]; intros H; [reflexivity|]. cbn [position].
  destruct (String.eqb_spec f g) as [->|_]; [destruct H; now left|]. rewrite IH; [reflexivity|]. intros F. apply H. now right.
Qed.

Lemma filter_false {A} (l : list A) : filter (fun _ => false) l = [].
Proof. induction l as [|a l IH]; [reflexivity|exact IH]. Qed.

Lemma NoDup_app_l {A} (l l' : list A) : NoDup (l ++ l') -> NoDup l.
Proof.
  induction l as [|a l IH]; [constructor|]. cbn [app]. intros D. inversion_clear D as [|? ? N D'].
  constructor; [|now apply IH]. intros F. apply N. apply in_or_app. now left.
Qed.

Lemma nth_error_some_nth {A} (l : list A) j d : (j < length l)%nat -> nth_error l j = Some (nth j l d).
Proof. apply nth_error_nth'. Qed.

Section Labels.
  Variables (nan neg_inf : R) (custom : string -> dict R -> dict R -> list R -> result R).
  Hypothesis Hcustom : total_custom custom.
  Variables (md : model_dict) (p : processed) (n : nat) (df : frame R) (ids lv : list Z) (ar : arrays R)
    (params : list R) (ps : parsed R) (val : label -> R) (i : nat) (id : Z) (data : nat -> string -> option R).
  Hypothesis H : likelihood_setting md p n df ids lv ar params ps.
  Hypothesis Hlin : linear_model md.
  Hypothesis Hval : parameter_values (params_index_of p) params val.
  Hypothesis Hi : nth_error ids i = Some id.
  Hypothesis Hdata : forall t x, (t < n)%nat -> handed_over 1 md n df lv id t x (data t x).

  Let Hwf : wf_dicts md. Proof. apply H. Qed.
  Let Hp : process_model md = Ok p. Proof. apply H. Qed.
  Let Hn : has_n_periods md n. Proof. apply H. Qed.
  Let Hg : good_names md. Proof. apply H. Qed.
  Let Hlen : length params = length (params_index_of p). Proof. apply H. Qed.
  Let Hps : parse_for 0 1 ln p params (length ids) = Ok ps. Proof. apply H. Qed.
  Let inp := inputs_of ps ar.
  Let nl := length (latent_of md).
  Let no := length (observed_of md).
  Let all := latent_of md ++ observed_of md.
  Let tfunc := model_tfunc nan neg_inf custom md (p_labels p).

  Lemma val_eq lb x : labelled (params_index_of p) params lb x -> x = val lb.
  Proof.
    intros L. assert (Hin : In lb (params_index_of p)) by (destruct L as (j & Hj & _); eapply nth_error_In, Hj).
    exact (labelled_fun _ _ _ _ _ (idx_NoDup md p Hwf Hg Hp) L (proj1 Hval lb Hin)).
  Qed.

  Lemma handed_eq t x w : (t < n)%nat -> handed_over 1 md n df lv id t x w -> w = data t x.
  Proof.
    intros Ht [A B]. destruct (Hdata t x Ht) as [C D].
    destruct (Classical_Prop.classic (discarded 1 md n df lv id t)) as [Hd|Hd].
    - now rewrite (A Hd), (C Hd).
    - now rewrite (B Hd), (D Hd).
  Qed.

  Lemma factor_nth j : (j < nl)%nat -> nth_error (latent_of md) j = Some (factor md j).
  Proof. apply nth_error_some_nth. Qed.

  (** ** The inputs of the filter by label *)

  Lemma input_loading k t v j : nth_error (equations md n) k = Some (t, v) -> (j < nl)%nat ->
    in_loadings inp k j = val (CLoadings, t, v, factor md j).
  Proof.
    intros Hk Hj.
    destruct (C09_measurement_parameters R 0 1 ln md p n (length ids) params ps Hwf (idx_NoDup md p Hwf Hg Hp) Hp Hn Hlen Hps)
      as (_ & _ & _ & _ & Heq & _).
    destruct (proj1 (Heq k t v Hk) j _ (factor_nth j Hj)) as (x & (row & Hr & Hx) & Hin & Hout).
    unfold inp, inputs_of, arr2, arr1. cbn [in_loadings].
    rewrite (nth_of_nth_error _ _ _ _ Hr), (nth_of_nth_error _ _ _ _ Hx).
    destruct (Classical_Prop.classic (involves md t (factor md j) v)) as [Y|N].
    - exact (val_eq _ _ (Hin Y)).
    - rewrite (Hout N). symmetry. apply (proj2 Hval). rewrite (In_params_index md p _ Hwf Hp).
      intros P. inversion P. contradiction.
  Qed.

  Lemma input_control_param k t v j : nth_error (equations md n) k = Some (t, v) ->
    (j < S (length (controls_of md)))%nat ->
    in_control_params inp k j = val (CControls, t, v, nth j ("constant"%string :: controls_of md) ""%string).
  Proof.
    intros Hk Hj.
    destruct (C09_measurement_parameters R 0 1 ln md p n (length ids) params ps Hwf (idx_NoDup md p Hwf Hg Hp) Hp Hn Hlen Hps)
      as (_ & _ & _ & _ & Heq & _).
    destruct (proj1 (proj2 (Heq k t v Hk)) j _ (nth_error_some_nth ("constant"%string :: controls_of md) j ""%string Hj)) as (x & (row & Hr & Hx) & L).
    unfold inp, inputs_of, arr2, arr1. cbn [in_control_params].
    rewrite (nth_of_nth_error _ _ _ _ Hr), (nth_of_nth_error _ _ _ _ Hx). exact (val_eq _ _ L).
  Qed.

  Lemma input_sd k t v : nth_error (equations md n) k = Some (t, v) -> in_sd inp k = val (CMeasSds, t, v, "-"%string).
  Proof.
    intros Hk.
    destruct (C09_measurement_parameters R 0 1 ln md p n (length ids) params ps Hwf (idx_NoDup md p Hwf Hg Hp) Hp Hn Hlen Hps)
      as (_ & _ & _ & _ & Heq & _).
    destruct (proj2 (proj2 (Heq k t v Hk))) as (x & Hx & L).
    unfold inp, inputs_of, arr1. cbn [in_sd]. rewrite (nth_of_nth_error _ _ _ _ Hx). exact (val_eq _ _ L).
  Qed.

  Lemma input_shock t j : (t + 1 < n)%nat -> (j < nl)%nat ->
    in_shock_sds inp t j = val (CShockSds, t, factor md j, "-"%string).
  Proof.
    intros Ht Hj.
    destruct (C09_measurement_parameters R 0 1 ln md p n (length ids) params ps Hwf (idx_NoDup md p Hwf Hg Hp) Hp Hn Hlen Hps)
      as (_ & _ & _ & _ & _ & Hsh).
    destruct (Hsh t j _ Ht (factor_nth j Hj)) as (x & (row & Hr & Hx) & L).
    unfold inp, inputs_of, arr2, arr1. cbn [in_shock_sds].
    rewrite (nth_of_nth_error _ _ _ _ Hr), (nth_of_nth_error _ _ _ _ Hx). exact (val_eq _ _ L).
  Qed.

  Lemma no_anchors f o : ~ anchored md f o.
  Proof.
    intros (a & outs & Ea & Eo & Hin). destruct Hlin as [Hout _]. unfold outcomes_of in Hout. rewrite Ea, Eo in Hout.
    rewrite Hout in Hin. destruct Hin.
  Qed.

  Lemma input_anchoring t k : (t < n)%nat -> (k < nl + no)%nat -> in_scaling inp t k = 1 /\ in_constants inp t k = 0.
  Proof.
    intros Ht Hk.
    assert (Hk' : (k < length (latent_of md ++ observed_of md))%nat) by (rewrite app_length; exact Hk).
    destruct Hlin as [Hout _].
    destruct (C12_anchoring_factors_partial R 0 1 ln md p n (length ids) params ps Hwf Hg Hp Hn Hlen Hps)
      as (_ & _ & Ha).
    - split; [|split]; rewrite Hout; [intros f o []|constructor|intros ? ? ? ? []].
    - unfold anchored_in_order. rewrite Hout. cbn [map existsb].
      symmetry. apply filter_false.
    - destruct (Ha t k _ Ht (nth_error_some_nth (latent_of md ++ observed_of md) k ""%string Hk')) as (x & c & (r1 & Hr1 & Hx) & (r2 & Hr2 & Hc) & _ & _ & Ex & Ec).
      unfold inp, inputs_of, arr2, arr1. cbn [in_scaling in_constants].
      rewrite (nth_of_nth_error _ _ _ _ Hr1), (nth_of_nth_error _ _ _ _ Hx), (nth_of_nth_error _ _ _ _ Hr2), (nth_of_nth_error _ _ _ _ Hc).
      split; [apply Ex|apply Ec; left]; intros o; apply no_anchors.
  Qed.

  Lemma input_value k t v : nth_error (equations md n) k = Some (t, v) -> in_values inp k i = data t v.
  Proof.
    intros Hk. destruct H as (Hd & _ & Har & _).
    destruct (C29_arrays_by_label 1 req md p n df ids lv ar req_spec Hd Har) as ((_ & _ & Hm) & _).
    destruct (Hm k t v i id Hk Hi) as (w & (row & Hr & Hw) & Hh).
    unfold inp, inputs_of, oarr1. cbn [in_values].
    rewrite (nth_of_nth_error _ _ _ _ Hr), (nth_of_nth_error _ _ _ _ Hw).
    apply handed_eq; [|exact Hh]. apply (equations_period md n t v). eapply nth_error_In, Hk.
  Qed.

  Lemma input_control t j : (t < n)%nat -> (j < S (length (controls_of md)))%nat ->
    in_controls inp t i j = data t (nth j ("constant"%string :: controls_of md) ""%string).
  Proof.
    intros Ht Hj. destruct H as (Hd & _ & Har & _).
    destruct (C29_arrays_by_label 1 req md p n df ids lv ar req_spec Hd Har) as (_ & (_ & _ & Hm) & _).
    destruct (Hm t i id j _ Ht Hi (nth_error_some_nth ("constant"%string :: controls_of md) j ""%string Hj)) as (w & (sh & Hs & row & Hr & Hw) & Hh).
    unfold inp, inputs_of, oarr2, oarr1. cbn [in_controls].
    rewrite (nth_of_nth_error _ _ _ _ Hs), (nth_of_nth_error _ _ _ _ Hr), (nth_of_nth_error _ _ _ _ Hw).
    now apply handed_eq.
  Qed.

  Lemma input_observed t j f : (t < n)%nat -> nth_error (observed_of md) j = Some f -> in_observed inp t i j = data t f.
  Proof.
    intros Ht Hj. destruct H as (Hd & _ & Har & _).
    destruct (C29_arrays_by_label 1 req md p n df ids lv ar req_spec Hd Har) as (_ & _ & (_ & _ & Hm)).
    destruct (Hm t i id j f Ht Hi Hj) as (w & (sh & Hs & row & Hr & Hw) & Hh).
    unfold inp, inputs_of, oarr2, oarr1. cbn [in_observed].
    rewrite (nth_of_nth_error _ _ _ _ Hs), (nth_of_nth_error _ _ _ _ Hr), (nth_of_nth_error _ _ _ _ Hw).
    now apply handed_eq.
  Qed.

  (** ** Factors *)

  Lemma value_latent t x j : (j < nl)%nat -> factor_value nan md data t x (factor md j) = x t j.
  Proof.
    intros Hj. unfold factor_value. destruct Hg as [Hnd _].
    rewrite (position_nth _ _ j); [reflexivity| |now apply factor_nth].
    now apply NoDup_app_l in Hnd.
  Qed.

  Lemma value_all t x k g : (t < n)%nat -> nth_error all k = Some g ->
    factor_value nan md data t x g = SpecKalman.all_factors nl (x t) (fun o => to_number nan (in_observed inp t i o)) k.
  Proof.
    intros Ht Hk. unfold SpecKalman.all_factors. destruct (Nat.ltb_spec k nl) as [L|G].
    - unfold all in Hk. rewrite nth_error_app1, (factor_nth k L) in Hk by exact L. injection Hk as <-. now apply value_latent.
    - unfold all in Hk. rewrite nth_error_app2 in Hk by exact G.
      rewrite (input_observed t (k - nl) g Ht Hk). unfold factor_value. rewrite position_none; [reflexivity|].
      intros F. destruct Hg as [Hnd _]. apply In_nth_error in F as [j Hj].
      assert (Hj' : (j < nl)%nat) by (apply nth_error_Some; congruence).
      assert (E : nth_error all j = nth_error all k).
      { unfold all. rewrite nth_error_app1 by exact Hj'. rewrite nth_error_app2 by exact G. fold nl in Hk. fold nl.
        transitivity (Some g); [exact Hj|symmetry; exact Hk]. }
      apply (proj1 (NoDup_nth_error all) Hnd) in E; [lia|]. unfold all. rewrite app_length. unfold nl in Hj'. lia.
  Qed.

  (** ** The transition *)

  Lemma transition_linear t j row state : (t + 1 < n)%nat -> (j < nl)%nat ->
    (forall k g, nth_error all k = Some g -> state g = row k) ->
    tfunc (in_coeffs inp t) row j = linear_formula all (fun name => val (CTransition, t, factor md j, name)) state.
  Proof.
    intros Ht Hj Hs. pose proof (factor_nth j Hj) as Hf.
    assert (Hin : In (factor md j) (latent_of md)) by (eapply nth_error_In, Hf).
    unfold latent_of in Hin. apply in_map_iff in Hin as ([f fs] & Ef & Hin). cbn [fst] in Ef.
    rewrite Ef in Hin. clear f Ef. destruct Hlin as [_ Hl]. pose proof (Hl _ _ Hin) as Htr.
    destruct (C57_model_transition nan neg_inf custom Hcustom md p n (length ids) params ps ar Hwf Hg Hp Hn Hlen Hps
      t j (factor md j) fs row (fun name => val (CTransition, t, factor md j, name)) state Ht Hf Hin) as [A _].
    - intros name Hname. apply (proj1 Hval). apply (In_params_index md p _ Hwf Hp). now apply (par_transition md t n _ fs).
    - exact Hs.
    - apply (A "linear"%string); [exact Htr|constructor].
  Qed.

  Lemma next_linear t x j : (t + 1 < n)%nat -> (j < nl)%nat ->
    expected_next nan tfunc nl inp i t (x t) j
    = linear_formula all (fun name => val (CTransition, t, factor md j, name)) (factor_value nan md data t x).
  Proof.
    intros Ht Hj. unfold expected_next, anchored_transition.
    destruct (input_anchoring (t + 1) j) as [-> ->]; [lia|lia|].
    rewrite (transition_linear t j _ (factor_value nan md data t x) Ht Hj); [field|].
    intros k g Hk. rewrite (value_all t x k g) by (assumption || lia).
    assert (Hk' : (k < nl + no)%nat) by (unfold nl, no; rewrite <- app_length; apply nth_error_Some; unfold all in Hk; congruence).
    destruct (input_anchoring (t + 0) k) as [-> ->]; [lia|exact Hk'|ring].
  Qed.

  Definition coefficient (t : nat) (f g : nat) : R := val (CTransition, t, factor md f, nth g all ""%string).
  Definition intercept (t : nat) (f : nat) : R := val (CTransition, t, factor md f, "constant"%string).

  Lemma transition_affine t : (t + 1 < n)%nat -> forall v f, (f < nl)%nat ->
    tfunc (in_coeffs inp t) v f = rsum (nl + no) (fun g => coefficient t f g * v g) + intercept t f.
  Proof.
    intros Ht v f Hf.
    rewrite (transition_linear t f v (fun g => match position g all with Some k => v k | None => 0 end) Ht Hf).
    - unfold linear_formula, linear_part. rewrite (sum_of_rsum ""%string). unfold all at 1. rewrite app_length. f_equal.
      apply rsum_ext. intros g Hgl. unfold coefficient. f_equal.
      rewrite (position_nth _ _ g); [reflexivity|apply Hg|]. apply nth_error_some_nth. unfold all. rewrite app_length. exact Hgl.
    - intros k g Hk. rewrite (position_nth _ _ k); [reflexivity|apply Hg|exact Hk].
  Qed.

  (** ** The densities *)

  Lemma equation_by_label k t v x : nth_error (equations md n) k = Some (t, v) ->
    measurement_equation nan md val data (t, v) x = equation_density nan nl (S (length (controls_of md))) inp i k t x.
  Proof.
    intros Hk. unfold measurement_equation, equation_density. rewrite (input_value k t v Hk).
    destruct (data t v) as [y|]; [|reflexivity].
    assert (Ht : (t < n)%nat) by (apply (equations_period md n t v); eapply nth_error_In, Hk).
    rewrite (input_sd k t v Hk). f_equal. f_equal.
    - rewrite (sum_of_rsum ""%string). unfold dot. apply rsum_ext. intros j Hj. rewrite (input_loading k t v j Hk Hj).
      fold (factor md j). rewrite value_latent by exact Hj. ring.
    - rewrite (sum_of_rsum ""%string). unfold dot. cbn [length]. apply rsum_ext. intros j Hj.
      rewrite (input_control_param k t v j Hk Hj), (input_control t j Ht Hj). ring.
  Qed.

  Lemma transition_by_label t x : (t + 1 < n)%nat ->
    transition_equation nan md val data t x = shock_density nan tfunc nl inp i t x.
  Proof.
    intros Ht. unfold transition_equation, shock_density. rewrite (prod_list_rprod ""%string).
    apply rprod_ext. intros j Hj. fold (factor md j).
    rewrite (next_linear t x j Ht Hj), (input_shock t j Ht Hj), value_latent by exact Hj. reflexivity.
  Qed.

  Hypothesis Hreg : regular_parameters md (params_index_of p) val.

  Lemma belief_entry e : (e < n_mixtures_of md)%nat ->
    exp (be_logw (initial_belief ps) i e) = val (CMixWeights, O, mixture_name e, "-"%string) /\
    veq nl (be_states (initial_belief ps) i e) (fun j => val (CInitStates, O, mixture_name e, factor md j)) /\
    forall r c, (r < nl)%nat -> (c < nl)%nat ->
      be_chols (initial_belief ps) i e r c
      = if (r <=? c)%nat then val (CInitChol, O, mixture_name e, cov_name (factor md c) (factor md r)) else 0.
  Proof.
    intros He. assert (Hi' : (i < length ids)%nat) by (apply nth_error_Some; congruence).
    destruct (C10_initial_distribution R 0 1 ln md p n (length ids) params ps Hwf (idx_NoDup md p Hwf Hg Hp) Hp Hn Hlen Hps)
      as (_ & _ & _ & Hinit).
    destruct (Hinit i Hi') as (st & ch & we & Hst & Hch & Hwe & _ & _ & _ & He').
    destruct (He' e He) as ((w & Hw & Lw) & (mean & Hm & _ & Hmean) & (chol & Hc & _ & Hchol)).
    unfold initial_belief. cbn [be_states be_chols be_logw]. unfold arr4, arr3, arr2, arr1.
    rewrite (nth_of_nth_error _ _ _ _ Hst), (nth_of_nth_error _ _ _ _ Hch), (nth_of_nth_error _ _ _ _ Hwe).
    rewrite (nth_of_nth_error _ _ _ _ Hw), (nth_of_nth_error _ _ _ _ Hm), (nth_of_nth_error _ _ _ _ Hc).
    split; [|split].
    - rewrite (val_eq _ _ Lw). apply exp_ln. now apply Hreg.
    - intros j Hj. destruct (Hmean j _ (factor_nth j Hj)) as (x & Hx & Lx). rewrite (nth_of_nth_error _ _ _ _ Hx).
      exact (val_eq _ _ Lx).
    - intros r c Hr Hcl. destruct (Hchol r c _ _ (factor_nth r Hr) (factor_nth c Hcl)) as (x & (row & Hrow & Hx) & A & B).
      rewrite (nth_of_nth_error _ _ _ _ Hrow), (nth_of_nth_error _ _ _ _ Hx).
      destruct (Nat.leb_spec r c) as [L|G]; [exact (val_eq _ _ (A L))|exact (B G)].
  Qed.

  Lemma initial_root e : (e < n_mixtures_of md)%nat -> proper_root nl (be_chols (initial_belief ps) i e).
  Proof.
    intros He. destruct (belief_entry e He) as (_ & _ & Hc). split.
    - intros a b Ha Hb Hlt. rewrite Hc by assumption. now rewrite (proj2 (Nat.leb_gt a b)) by exact Hlt.
    - intros a Ha. rewrite Hc, Nat.leb_refl by assumption. destruct Hreg as (_ & _ & Hd & _). apply Hd.
      apply (In_params_index md p _ Hwf Hp). apply (par_initial_chol md e a a); [assumption|now apply factor_nth|now apply factor_nth|lia].
  Qed.

  Lemma initial_good : good_belief (n_mixtures_of md) nl i (initial_belief ps).
  Proof.
    split; [exact initial_root|]. destruct Hreg as (_ & _ & _ & _ & Hs). rewrite <- Hs. apply rsum_ext.
    intros e He. now apply belief_entry.
  Qed.

  Lemma initial_by_label x :
    initial_mixture md val x = rsum (n_mixtures_of md) (fun e => initial_density nl (initial_belief ps) i e x).
  Proof.
    apply rsum_ext. intros e He. unfold initial_density. destruct (belief_entry e He) as (<- & Hm & Hc). f_equal.
    symmetry. refine (proj2 (mvn_density_ext nl _ _ _ _ _ (initial_root e He) _ _ _)).
    - intros a b Ha Hb Hlt. now rewrite (proj2 (Nat.leb_gt a b)) by exact Hlt.
    - intros a b Ha Hb. unfold cov. apply rsum_ext. intros c Hcl. now rewrite !Hc by assumption.
    - exact Hm.
  Qed.
End Labels.
