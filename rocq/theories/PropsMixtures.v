(** The elements of the initial mixture are interchangeable, and equal elements can be
    merged (C100). *)
Require Import Reals Qreals Lra String Arith ZArith Bool List Lia FunctionalExtensionality.
From Verif Require Import PyBase ListFacts ModelSpec ProcessModel CheckModel SpecModel ProcessModelFacts
  SpecParse SpecIndex IndexFacts SpecFacts ParamsIndex ParseParams ParseFacts AnchorFacts PropsParse ProcessData SpecData DataFacts PropsData
  RSum Kalman KalmanFacts PropsKalman Likelihood SpecLikelihood ScheduleFacts LikelihoodRun LikelihoodLocal PropsFiltered SpecModelDensity
  LikelihoodFacts ExampleModels PropsSpec PropsLikelihood QRWitness PropsNumerics Renormalization PropsRenormalization TransitionFunctions PropsTransition
  Utilities SpecUtilities UtilitiesFacts ParamsVec ModelInputs Runs Related PropsPrefix PropsRemoved PropsControls SpecMixtures MixtureMap.
Import ListNotations.
Open Scope R_scope.

Section Mixtures.
  Variable qr : qr_function.
  Variables nan neg_inf : R.
  Variable custom : string -> dict R -> dict R -> list R -> result R.
  Variables (md : model_dict) (p : processed) (n : nat) (df : frame R) (ids lv : list Z) (ar : arrays R)
    (params : list R) (ps : parsed R) (val : label -> R) (k' : nat) (part : nat -> nat).
  Let md' := with_mixtures k' md.
  Variables (p' : processed) (ar' : arrays R) (params' : list R) (ps' : parsed R) (val' : label -> R).
  Hypothesis H : likelihood_setting md p n df ids lv ar params ps.
  Hypothesis Hclean : clean_anchoring md.
  Hypothesis Hval : parameter_values (params_index_of p) params val.
  Hypothesis H' : likelihood_setting md' p' n df ids lv ar' params' ps'.
  Hypothesis Hval' : parameter_values (params_index_of p') params' val'.
  Hypothesis Hmix : same_mixture part (n_mixtures_of md) k' (latent_of md) val val'.
  Hypothesis Hw : weights_allowed (n_mixtures_of md) val.
  Hypothesis Hw' : forall e', (e' < k')%nat -> 0 < val' (weight_label e').

  Let Hwf : wf_dicts md. Proof. apply H. Qed.
  Let Hp : process_model md = Ok p. Proof. apply H. Qed.
  Let Hn : has_n_periods md n. Proof. apply H. Qed.
  Let Hwf' : wf_dicts md'. Proof. apply H'. Qed.
  Let Hp' : process_model md' = Ok p'. Proof. apply H'. Qed.
  Let Hn' : has_n_periods md' n. Proof. apply H'. Qed.
  Let inp := inputs_of ps ar.
  Let inp' := inputs_of ps' ar'.
  Let tfunc := model_tfunc nan neg_inf custom md (p_labels p).

  Lemma mixture_options : exists o, md_options md = Some o.
  Proof.
    destruct (md_options md) as [o|] eqn:E; [now exists o|]. exfalso. unfold process_model, get_dimensions in Hp.
    cbv zeta in Hp. rewrite E in Hp. destruct (py_max _); discriminate.
  Qed.

  Lemma mixture_number : n_mixtures_of md' = k'.
  Proof. destruct mixture_options as [o E]. unfold n_mixtures_of, md', with_mixtures. cbn [md_options]. now rewrite E. Qed.

  Lemma mixture_options_same : process_estimation_options md' = process_estimation_options md.
  Proof. destruct mixture_options as [o E]. unfold process_estimation_options, md', with_mixtures. cbn [md_options]. now rewrite E. Qed.

  Lemma mixture_other c t x y : c <> CInitStates -> c <> CInitChol -> c <> CMixWeights -> val (c, t, x, y) = val' (c, t, x, y).
  Proof. intros A B C. symmetry. now apply Hmix. Qed.

  Let given := given_value md n df lv.
  Let Hgiven : forall id t x, In id ids -> (t < n)%nat -> handed_over 1 md n df lv id t x (given id t x).
  Proof. intros. apply given_handed. Qed.
  Let Hgiven' : forall id t x, In id ids -> (t < n)%nat -> handed_over 1 md' n df lv id t x (given id t x).
  Proof. exact Hgiven. Qed.

  Lemma mixture_events : Forall2 (event_agrees tfunc tfunc inp inp') (code_events 0 (purposes (p_update p))) (code_events 0 (purposes (p_update p'))).
  Proof.
    rewrite (purposes_equations md p n Hwf Hp Hn), (purposes_equations md' p' n Hwf' Hp' Hn').
    change (equations md' n) with (equations md n).
    apply code_events_Forall.
    - intros i t b Hi. rewrite nth_error_map in Hi.
      destruct (nth_error (equations md n) i) as [[s v]|] eqn:Ei; [|discriminate]. injection Hi as <- <-.
      assert (Hs : (s < n)%nat) by (apply (equations_period md n s v); eapply nth_error_In, Ei).
      assert (Ag : equation_agrees inp inp' i i s).
      { refine (related_equation md p n df lv ar params ps val md' p' n df lv ar' params' ps' val' ids H Hval H' Hval' eq_refl given given Hgiven Hgiven'
          i i s v Ei Ei eq_refl _ _ _ _); intros; try reflexivity; apply mixture_other; discriminate. }
      unfold ev. cbn [fst snd]. rewrite Nat.add_0_l.
      change (is_anchoring_equation md' v) with (is_anchoring_equation md v).
      destruct (is_anchoring_equation md v); now constructor.
    - intros i t b b' _ Hi. rewrite nth_error_map in Hi.
      destruct (nth_error (equations md n) (S i)) as [[s v]|] eqn:Ei; [|discriminate]. injection Hi as Es _. cbn [fst] in Es. subst s.
      assert (Ht : (S t < n)%nat) by (apply (equations_period md n _ v); eapply nth_error_In, Ei).
      constructor.
      assert (Es : forall s, (s < n)%nat -> in_scaling inp s = in_scaling inp' s).
      { intros s Hs. refine (related_scaling md p n df lv ar params ps val md' p' n df lv ar' params' ps' val' ids H Hval Hclean H' Hval' Hclean eq_refl
          eq_refl eq_refl s Hs Hs _). intros fo Hfo. apply mixture_other; discriminate. }
      assert (Ec : forall s, (s < n)%nat -> in_constants inp s = in_constants inp' s).
      { intros s Hs. refine (related_constants md p n df lv ar params ps val md' p' n df lv ar' params' ps' val' ids H Hval Hclean H' Hval' Hclean eq_refl
          eq_refl eq_refl eq_refl s Hs Hs _). intros fo Hfo. apply mixture_other; discriminate. }
      split; [|split; [|split; [|split; [|split; [|split]]]]]; try (apply Es; lia); try (apply Ec; lia).
      + f_equal. refine (related_coeffs md p n df lv ar params ps val md' p' n df lv ar' params' ps' val' ids H Hval H' Hval' eq_refl eq_refl t _ _ eq_refl _); try lia.
        intros f x. apply mixture_other; discriminate.
      + refine (related_shocks md p n df lv ar params ps val md' p' n df lv ar' params' ps' val' ids H Hval H' Hval' eq_refl t _ _ _); try lia.
        intros f _. apply mixture_other; discriminate.
      + refine (related_observed md p n df lv ar params ps md' p' n df lv ar' params' ps' ids H H' eq_refl _ _ Hgiven Hgiven' t _ _ _); try lia.
        intros id x Hid Hx. reflexivity.
  Qed.

  Lemma no_observed : length (observed_of md) = O -> forall t j f, in_observed inp t j f = None.
  Proof.
    intros E t j f. destruct (Nat.lt_ge_cases t n) as [Ht|Ht].
    - unfold inp. rewrite (observed_form _ _ _ _ _ _ _ _ _ H given Hgiven t Ht).
      apply length_zero_iff_nil in E. rewrite E. unfold oarr2. destruct (nth_error ids j) as [id|] eqn:Ej.
      + rewrite (nth_of_nth_error (map (fun id => map (given id t) []) ids) j _ [] (map_nth_error _ _ _ Ej)).
        cbn [map]. now destruct f.
      + rewrite (nth_overflow (map _ ids)) by (rewrite map_length; now apply nth_error_None). now destruct f.
    - unfold inp, inputs_of. cbn [in_observed]. destruct H as (Hd & _ & Har & _).
      destruct (C29_arrays_by_label 1 req md p n df ids lv ar req_spec Hd Har) as (_ & _ & (Hl & _)).
      rewrite nth_overflow by lia. unfold oarr2. destruct j; destruct f; reflexivity.
  Qed.

  Lemma mixture_initial i : (i < length ids)%nat ->
    spread (n_mixtures_of md) k' i part (initial_belief ps) (initial_belief ps').
  Proof.
    intros Hi. destruct Hmix as (Hpart & Hs & Hc & Hwe & _).
    rewrite (initial_form _ _ _ _ _ _ _ _ _ _ H Hval), (initial_form _ _ _ _ _ _ _ _ _ _ H' Hval').
    rewrite mixture_number. change (latent_of md') with (latent_of md). unfold spread, spread_weights.
    cbn [be_states be_chols be_logw]. unfold arr4, arr3, arr2, arr1.
    assert (Hrep : forall {A} (x d : A), nth i (repeat x (length ids)) d = x).
    { intros A x d. rewrite (nth_indep _ d x) by (now rewrite repeat_length). apply nth_repeat. }
    rewrite !Hrep. unfold range.
    assert (G : forall {A} (g : nat -> A) d k e, (e < k)%nat -> nth e (map g (seq 0 k)) d = g e).
    { intros A g d k e He. rewrite (nth_indep _ d (g 0%nat)) by (now rewrite map_length, seq_length).
      rewrite map_nth, seq_nth by assumption. reflexivity. }
    split; [|split].
    - intros e' He'. pose proof (Hpart e' He') as He. split.
      + extensionality f. rewrite !G by assumption. f_equal. apply map_ext_in. intros x Hx. now apply Hs.
      + extensionality a. extensionality b. rewrite (G _ _ _ k' e' He'), (G _ _ _ (n_mixtures_of md) _ He). do 2 f_equal. apply map_ext_in. intros r Hr.
        apply map_ext_in. intros c Hcc. apply in_seq in Hr, Hcc. destruct (r <=? c)%nat; [|reflexivity].
        apply Hc; [assumption| |]; apply nth_In; lia.
    - intros e He. rewrite G by assumption. rewrite exp_ln by (now apply Hw).
      change (val (CMixWeights, O, mixture_name e, "-"%string)) with (val (weight_label e)).
      rewrite (Hwe e He). apply rsum_ext. intros e' He'. rewrite G by assumption.
      rewrite exp_ln by (now apply Hw'). reflexivity.
    - intros E. rewrite E, G by lia. rewrite exp_ln.
      + now apply Hw.
      + apply Hw. lia.
  Qed.

  Lemma mixture_runs i recs recs' : (i < length ids)%nat ->
    run_model qr nan tfunc p (length ids) ps ar (code_events 0 (purposes (p_update p))) = Ok recs ->
    run_model qr nan (model_tfunc nan neg_inf custom md' (p_labels p')) p' (length ids) ps' ar' (code_events 0 (purposes (p_update p'))) = Ok recs' ->
    Forall2 (spread_record (n_mixtures_of md) k' i part) recs recs'.
  Proof.
    intros Hi E E'.
    rewrite (related_tfunc nan neg_inf custom md md' p p' Hp Hp' eq_refl eq_refl) in E'. unfold run_model in E, E'.
    assert (Hnm : (1 <= n_mixtures (p_dims p))%nat) by (apply (parse_mixtures p params (length ids) ps); apply H).
    assert (Hnm' : (1 <= n_mixtures (p_dims p'))%nat) by (apply (parse_mixtures p' params' (length ids) ps'); apply H').
    destruct (p_dims_eq md p Hp) as (D1 & D2 & D3 & D4 & _). destruct (p_dims_eq md' p' Hp') as (D1' & D2' & D3' & D4' & _).
    rewrite D1', D2', D3', D4', (p_options_eq _ _ Hp'), mixture_options_same, mixture_number in E'.
    rewrite D4', mixture_number in Hnm'. rewrite D4 in Hnm.
    change (latent_of md') with (latent_of md) in E'. change (observed_of md') with (observed_of md) in E'.
    change (controls_of md') with (controls_of md) in E'.
    rewrite D1, D2, D3, D4, (p_options_eq _ _ Hp) in E.
    fold inp in E. fold inp' in E'. fold tfunc in E'.
    rewrite <- (run_agrees qr nan tfunc tfunc (length ids) k' _ _ _ _ inp inp' _ _ mixture_events) in E'.
    exact (run_spread qr nan tfunc (length ids) (n_mixtures_of md) k' _ _ _ _ inp i part Hi Hnm Hnm' (proj1 Hmix) no_observed _ _ _ _ _
      (mixture_initial i Hi) E E').
  Qed.
End Mixtures.

Lemma spread_outputs part o n_obs n_updates k k' n b b' debug out out' recs recs' :
  (forall e', (e' < k')%nat -> (part e' < k)%nat) ->
  reports o n_obs recs b debug out -> reports o n_obs recs' b' debug out' ->
  length recs = n_updates ->
  (forall i, (i < n_obs)%nat -> Forall2 (spread_record k k' i part) recs recs') ->
  same_mixture_output part n_obs n_updates k k' n out out'.
Proof.
  intros Hpart (V & C & N & D) (V' & C' & N' & D') Hl F.
  assert (E : forall i, (i < n_obs)%nat -> contribution_of o recs i = contribution_of o recs' i).
  { intros i Hi. specialize (F i Hi). unfold contribution_of. clear -F. induction F as [|r r' l l' [Hr _] _ IH]; [reflexivity|].
    cbn [map sum_list fold_right] in *. rewrite Hr. f_equal. exact IH. }
  split; [|split].
  - rewrite V, V'. now apply rsum_ext.
  - intros i Hi. rewrite C, C'. now apply E.
  - destruct debug.
    + destruct (D eq_refl) as (d & -> & I1 & I2 & K). destruct (D' eq_refl) as (d' & -> & I1' & I2' & K').
      intros i u Hi Hu. specialize (F i Hi).
      destruct (nth_error recs u) as [r|] eqn:Ek; [|apply nth_error_None in Ek; lia].
      assert (exists r', nth_error recs' u = Some r' /\ spread_record k k' i part r r') as (r' & Ek' & A & B & [W _]).
      { clear -F Ek. revert u Ek. induction F as [|a a' l l' Ha _ IH]; intros [|u] Ek; try discriminate.
        - injection Ek as <-. exists a'. auto.
        - now apply IH. }
      destruct (K u r Ek) as (K1 & K2 & K3 & K4 & K5). destruct (K' u r' Ek') as (K1' & K2' & K3' & K4' & K5').
      rewrite K1, K1', K2, K2', K3, K3', K4, K4', K5, K5'.
      split; [exact A|]. split; [|split; [exact W|]].
      * intros e' He'. destruct (B e' He') as (-> & -> & ->). repeat split; reflexivity.
      * intros f _. rewrite (sum_over_parts k k' part Hpart (fun e => exp (re_logw r i e)) (fun e' => exp (re_logw r' i e')) (fun e => re_states r i e f) W).
        apply rsum_ext. intros e' He'. now rewrite (proj1 (B e' He')).
    + now rewrite (N eq_refl), (N' eq_refl).
Qed.

(** *** C100 Writing the initial mixture differently does not change the likelihood
    The elements of the initial mixture can be renumbered, and elements with the same
    mean and covariance can be merged into one with the sum of their weights: the
    likelihood, all contributions and the distribution of the filtered states stay the
    same.  The only other effect is on models with observed factors, which can only be
    evaluated with a single element (C40). *)
Theorem C100_same_mixture :
  forall qr nan neg_inf custom md p n df ids lv ar params ps val k' part p' ar' params' ps' val' debug,
    likelihood_setting md p n df ids lv ar params ps -> clean_anchoring md ->
    parameter_values (params_index_of p) params val ->
    likelihood_setting (with_mixtures k' md) p' n df ids lv ar' params' ps' ->
    parameter_values (params_index_of p') params' val' ->
    same_mixture part (n_mixtures_of md) k' (latent_of md) val val' ->
    weights_allowed (n_mixtures_of md) val -> weights_allowed k' val' ->
    match log_likelihood qr nan (model_tfunc nan neg_inf custom md (p_labels p)) p ar debug params,
          log_likelihood qr nan (model_tfunc nan neg_inf custom (with_mixtures k' md) (p_labels p')) p' ar' debug params' with
    | Ok out, Ok out' =>
        same_mixture_output part (length ids) (length (equations md n)) (n_mixtures_of md) k' (length (latent_of md)) out out'
    | Err e, Err e' => e = e'
    | _, _ => observed_of md <> [] /\ n_mixtures_of md <> k'
    end.
Proof.
  intros qr nan neg_inf custom md p n df ids lv ar params ps val k' part p' ar' params' ps' val' debug
    H Hclean Hval H' Hval' Hmix Hw Hw'.
  set (md' := with_mixtures k' md) in *.
  assert (Hwf : wf_dicts md) by apply H. assert (Hp : process_model md = Ok p) by apply H.
  assert (Hn : has_n_periods md n) by apply H.
  assert (Hwf' : wf_dicts md') by apply H'. assert (Hp' : process_model md' = Ok p') by apply H'.
  assert (Hn' : has_n_periods md' n) by apply H'.
  assert (Hlu : length (p_update p) = length (equations md n)).
  { rewrite (equations_update md p n Hwf Hp Hn). now rewrite map_length. }
  assert (Hlu' : length (p_update p') = length (equations md n)).
  { change (equations md n) with (equations md' n). rewrite (equations_update md' p' n Hwf' Hp' Hn'). now rewrite map_length. }
  destruct (p_dims_eq md p Hp) as (_ & D2 & _ & D4 & _). destruct (p_dims_eq md' p' Hp') as (_ & D2' & _ & D4' & _).
  pose proof (mixture_number md p n df ids lv ar params ps k' H) as Enum. fold md' in Enum.
  pose proof (mixture_options_same md p n df ids lv ar params ps k' H) as Eopt. fold md' in Eopt.
  rewrite Enum in D4'. change (observed_of md') with (observed_of md) in D2'.
  destruct (equations md n) as [|e l0] eqn:Ee.
  { assert (Eu : p_update p = []) by (now apply length_zero_iff_nil).
    assert (Eu' : p_update p' = []) by (now apply length_zero_iff_nil).
    unfold log_likelihood. destruct (ar_shapes md p n df ids lv ar params ps H) as (_ & _ & ->).
    destruct (ar_shapes md' p' n df ids lv ar' params' ps' H') as (_ & _ & ->).
    assert (Hps : parse_for 0 1 ln p params (length ids) = Ok ps) by apply H. rewrite Hps.
    assert (Hps' : parse_for 0 1 ln p' params' (length ids) = Ok ps') by apply H'. rewrite Hps'. cbn [rbind].
    rewrite (loop_args_ok md p n df ids lv ar params ps H), Eu.
    rewrite (loop_args_ok md' p' n df ids lv ar' params' ps' H'), Eu'. cbn [length seq map rbind scan snd].
    split; [reflexivity|]. split; [reflexivity|]. cbn [out_debug]. destruct debug; [|exact I].
    intros i k _ Hk. cbn [length] in Hk. lia. }
  assert (Hne : p_update p <> []) by (intros F; rewrite F in Hlu; discriminate).
  assert (Hne' : p_update p' <> []) by (intros F; rewrite F in Hlu'; discriminate).
  rewrite <- Ee in *. clear Ee.
  destruct (shapes_fit (length ids) (n_mixtures (p_dims p)) (n_observed (p_dims p))) eqn:Hfit;
  destruct (shapes_fit (length ids) (n_mixtures (p_dims p')) (n_observed (p_dims p'))) eqn:Hfit'.
  - destruct (likelihood_events qr nan (model_tfunc nan neg_inf custom md (p_labels p)) md p n df ids lv ar params ps debug H Hfit) as (recs & out & Er & Hl & -> & Hr).
    destruct (likelihood_events qr nan (model_tfunc nan neg_inf custom md' (p_labels p')) md' p' n df ids lv ar' params' ps' debug H' Hfit') as (recs' & out' & Er' & Hl' & -> & Hr').
    rewrite (p_options_eq _ _ Hp'), Eopt in Hr'. rewrite (p_options_eq _ _ Hp) in Hr.
    apply (spread_outputs _ _ _ _ _ _ _ _ _ _ _ _ _ _ (proj1 Hmix) Hr Hr'); [congruence|].
    intros i Hi. exact (mixture_runs qr nan neg_inf custom md p n df ids lv ar params ps val k' part p' ar' params' ps' val'
      H Hclean Hval H' Hval' Hmix Hw (proj1 Hw') i recs recs' Hi Er Er').
  - destruct (likelihood_events qr nan (model_tfunc nan neg_inf custom md (p_labels p)) md p n df ids lv ar params ps debug H Hfit) as (recs & out & Er & Hl & -> & Hr).
    rewrite (likelihood_misfits qr nan (model_tfunc nan neg_inf custom md' (p_labels p')) md' p' n df ids lv ar' params' ps' debug H' Hfit' Hne').
    rewrite D2, D4 in Hfit. rewrite D2', D4' in Hfit'. split.
    + intros F. rewrite F in Hfit'. unfold shapes_fit in Hfit'. cbn in Hfit'. destruct (length ids =? 0)%nat; discriminate.
    + intros F. rewrite F in Hfit. congruence.
  - destruct (likelihood_events qr nan (model_tfunc nan neg_inf custom md' (p_labels p')) md' p' n df ids lv ar' params' ps' debug H' Hfit') as (recs' & out' & Er' & Hl' & -> & Hr').
    rewrite (likelihood_misfits qr nan (model_tfunc nan neg_inf custom md (p_labels p)) md p n df ids lv ar params ps debug H Hfit Hne).
    rewrite D2, D4 in Hfit. rewrite D2', D4' in Hfit'. split.
    + intros F. rewrite F in Hfit. unfold shapes_fit in Hfit. cbn in Hfit. destruct (length ids =? 0)%nat; discriminate.
    + intros F. rewrite F in Hfit. congruence.
  - rewrite (likelihood_misfits qr nan (model_tfunc nan neg_inf custom md (p_labels p)) md p n df ids lv ar params ps debug H Hfit Hne).
    rewrite (likelihood_misfits qr nan (model_tfunc nan neg_inf custom md' (p_labels p')) md' p' n df ids lv ar' params' ps' debug H' Hfit' Hne').
    reflexivity.
Qed.
Print Assumptions C100_same_mixture.

(** ** An example: three elements, the last two of which are equal *)

Definition pair_model : model_dict :=
  mk_md (md_factors kept_model) None (md_controls kept_model) (md_stagemap kept_model) (md_anchoring kept_model)
    (Some (mk_opts (Some 2%nat) None None None None None None None)).
Definition pair_p : processed := get_ok (process_model pair_model) small_p.
Lemma pair_accepted : process_model pair_model = Ok pair_p.
Proof. vm_compute. reflexivity. Qed.
Definition trio_p : processed := get_ok (process_model (with_mixtures 3 pair_model)) small_p.
Lemma trio_accepted : process_model (with_mixtures 3 pair_model) = Ok trio_p.
Proof. vm_compute. reflexivity. Qed.

Definition pair_part (e' : nat) : nat := match e' with O => O | _ => 1%nat end.

Definition pair_value (lb : label) : R :=
  match lb with
  | (CMixWeights, _, e, _) => if String.eqb e "mixture_0" then / 4 else 3 / 4
  | (CInitStates, _, e, _) => if String.eqb e "mixture_0" then 1 else 2
  | _ => kept_value lb
  end.
Definition trio_value (lb : label) : R :=
  match lb with
  | (CMixWeights, _, e, _) => if String.eqb e "mixture_2" then / 2 else / 4
  | _ => pair_value lb
  end.

Lemma any_pair md p : md_factors md = md_factors kept_model -> md_observed md = None -> md_controls md = md_controls kept_model ->
  md_anchoring md = md_anchoring kept_model -> process_model md = Ok p ->
  data_setting md p 3 ex_df ex_ids ex_lv /\ good_names md /\ clean_anchoring md.
Proof.
  intros Ef Eo Ec Ea Hp. destruct md as [fa ob co st an op]. cbn in Ef, Eo, Ec, Ea. subst fa ob co an.
  split; [|split].
  - destruct kept_setting as (H1 & _ & H3 & H4 & H5 & H6 & H7).
    split; [exact H1|]. split; [exact Hp|]. split; [exact H3|].
    split; [exact H4|]. split; [exact H5|]. split; [exact H6|exact H7].
  - destruct kept_good_names as (_ & G2 & _ & G4 & G5 & G6). split; [|split; [exact G2|split; [|split; [exact G4|split; [exact G5|exact G6]]]]].
    + repeat constructor; cbn; intuition discriminate.
    + destruct kept_good_names as (_ & _ & G3 & _). intros f Hf. apply G3. apply in_or_app. left.
      apply in_app_or in Hf as [Hf|[]]. exact Hf.
  - exact kept_clean.
Qed.

Lemma value_if idx v lb b : NoDup idx -> label_mem lb idx = b -> val_of 0 idx (map v idx) lb = if b then v lb else 0.
Proof.
  intros Hnd <-. destruct (label_mem lb idx) eqn:E.
  - apply val_of_values; [assumption|]. now apply label_mem_In.
  - apply (proj2 (values_ok idx v Hnd)). intros F. apply label_mem_In in F. congruence.
Qed.

Lemma other_param k md c t x y : c <> CInitStates -> c <> CInitChol -> c <> CMixWeights ->
  is_param (with_mixtures k md) (c, t, x, y) <-> is_param md (c, t, x, y).
Proof.
  intros A B C. split; intros Hi;
    inversion Hi as [t0 v0 c0 Hf Hc|t0 v0 f Hi0 Hf|t0 v0 Hf|t0 f m Hm Ht Hf|e f He Hf|e He|e row col fr fc He Hr Hc Hle|t0 m f fs name Hm Ht Hf Hname];
    subst; try contradiction.
  all: try (now constructor).
  - now apply (par_shock_sd md t x m).
  - now apply (par_transition md t m x fs y).
  - now apply (par_shock_sd (with_mixtures k md) t x m).
  - now apply (par_transition (with_mixtures k md) t m x fs y).
Qed.

Lemma other_values k md p p' (v v' : label -> R) :
  (forall c t x y, c <> CInitStates -> c <> CInitChol -> c <> CMixWeights -> v' (c, t, x, y) = v (c, t, x, y)) ->
  forall c t x y, data_setting md p 3 ex_df ex_ids ex_lv -> data_setting (with_mixtures k md) p' 3 ex_df ex_ids ex_lv ->
  good_names md -> good_names (with_mixtures k md) ->
  c <> CInitStates -> c <> CInitChol -> c <> CMixWeights ->
  val_of 0 (params_index_of p') (map v' (params_index_of p')) (c, t, x, y)
  = val_of 0 (params_index_of p) (map v (params_index_of p)) (c, t, x, y).
Proof.
  intros Hv c t x y (Hwf & Hp & _) (Hwf' & Hp' & _) Hg Hg' A B C.
  assert (Hnd : NoDup (params_index_of p)) by (now apply (idx_NoDup md p)).
  assert (Hnd' : NoDup (params_index_of p')) by (now apply (idx_NoDup (with_mixtures k md) p')).
  pose proof (other_param k md c t x y A B C) as I.
  pose proof (In_params_index md p (c, t, x, y) Hwf Hp) as J.
  pose proof (In_params_index (with_mixtures k md) p' (c, t, x, y) Hwf' Hp') as J'.
  rewrite (value_if _ v (c, t, x, y) _ Hnd eq_refl), (value_if _ v' (c, t, x, y) _ Hnd' eq_refl).
  assert (E : label_mem (c, t, x, y) (params_index_of p') = label_mem (c, t, x, y) (params_index_of p)).
  { pose proof (label_mem_In (c, t, x, y) (params_index_of p')) as K'. pose proof (label_mem_In (c, t, x, y) (params_index_of p)) as K.
    destruct (label_mem (c, t, x, y) (params_index_of p')), (label_mem (c, t, x, y) (params_index_of p)); try reflexivity; exfalso; intuition discriminate. }
  rewrite E. destruct (label_mem (c, t, x, y) (params_index_of p)); [now apply Hv|reflexivity].
Qed.

Example C100_nonvacuous : exists ar ps val ar' ps' val',
  likelihood_setting pair_model pair_p 3 (real_frame ex_df) ex_ids ex_lv ar (map pair_value (params_index_of pair_p)) ps /\
  clean_anchoring pair_model /\
  parameter_values (params_index_of pair_p) (map pair_value (params_index_of pair_p)) val /\
  likelihood_setting (with_mixtures 3 pair_model) trio_p 3 (real_frame ex_df) ex_ids ex_lv ar' (map trio_value (params_index_of trio_p)) ps' /\
  parameter_values (params_index_of trio_p) (map trio_value (params_index_of trio_p)) val' /\
  same_mixture pair_part (n_mixtures_of pair_model) 3 (latent_of pair_model) val val' /\
  weights_allowed (n_mixtures_of pair_model) val /\ weights_allowed 3 val' /\
  observed_of pair_model = [] /\ (length (equations pair_model 3) >= 6)%nat /\
  val (CInitStates, 0%nat, "mixture_0"%string, "cog"%string) <> val (CInitStates, 0%nat, "mixture_1"%string, "cog"%string).
Proof.
  destruct (any_pair pair_model pair_p eq_refl eq_refl eq_refl eq_refl pair_accepted) as (Hd & Hg & Hc).
  destruct (any_pair (with_mixtures 3 pair_model) trio_p eq_refl eq_refl eq_refl eq_refl trio_accepted) as (Hd' & Hg' & Hc').
  destruct (any_example pair_model pair_p 3 ex_df ex_ids ex_lv
    (get_ok (process_data 1%Z Z.eqb ex_df (p_labels pair_p) (p_update pair_p) (p_anch pair_p) true) ex_arrays) pair_value Hd Hg Hc) as (ar & ps & H).
  { lia. } { apply Nat.leb_le. reflexivity. } { vm_compute. reflexivity. }
  destruct (any_example (with_mixtures 3 pair_model) trio_p 3 ex_df ex_ids ex_lv
    (get_ok (process_data 1%Z Z.eqb ex_df (p_labels trio_p) (p_update trio_p) (p_anch trio_p) true) ex_arrays) trio_value Hd' Hg' Hc') as (ar' & ps' & H').
  { lia. } { apply Nat.leb_le. reflexivity. } { vm_compute. reflexivity. }
  assert (Hnd : NoDup (params_index_of pair_p)) by (apply (idx_NoDup pair_model pair_p); [apply Hd|exact Hg|exact pair_accepted]).
  assert (Hnd' : NoDup (params_index_of trio_p)) by (apply (idx_NoDup (with_mixtures 3 pair_model) trio_p); [apply Hd'|exact Hg'|exact trio_accepted]).
  pose proof (fun lb b => value_if (params_index_of pair_p) pair_value lb b Hnd) as V.
  pose proof (fun lb b => value_if (params_index_of trio_p) trio_value lb b Hnd') as V'.
  pose proof (values_ok _ pair_value Hnd) as P. pose proof (values_ok _ trio_value Hnd') as P'.
  exists ar, ps, (val_of 0 (params_index_of pair_p) (map pair_value (params_index_of pair_p))), ar', ps',
    (val_of 0 (params_index_of trio_p) (map trio_value (params_index_of trio_p))).
  assert (O : forall c t x y, c <> CInitStates -> c <> CInitChol -> c <> CMixWeights ->
    val_of 0 (params_index_of trio_p) (map trio_value (params_index_of trio_p)) (c, t, x, y)
    = val_of 0 (params_index_of pair_p) (map pair_value (params_index_of pair_p)) (c, t, x, y)).
  { intros c t x y A B C.
    refine (other_values 3 pair_model pair_p trio_p pair_value trio_value _ c t x y Hd Hd' Hg Hg' A B C).
    intros c0 t0 x0 y0 _ _ D. destruct c0; try reflexivity; contradiction. }
  generalize dependent (val_of 0 (params_index_of trio_p) (map trio_value (params_index_of trio_p))).
  generalize dependent (val_of 0 (params_index_of pair_p) (map pair_value (params_index_of pair_p))).
  intros val V P val' V' P' O.
  assert (Hlat : latent_of pair_model = ["cog"; "soc"]%string) by reflexivity.
  split; [exact H|]. split; [exact Hc|]. split; [exact P|]. split; [exact H'|]. split; [exact P'|].
  clear H H' P P' Hnd Hnd' Hd Hd' Hg Hg' Hc Hc'.
  assert (W : val (weight_label 0) = / 4 /\ val (weight_label 1) = 3 / 4).
  { split; (refine (eq_trans (V _ true _) _); [vm_compute; reflexivity|reflexivity]). }
  assert (W' : val' (weight_label 0) = / 4 /\ val' (weight_label 1) = / 4 /\ val' (weight_label 2) = / 2).
  { split; [|split]; (refine (eq_trans (V' _ true _) _); [vm_compute; reflexivity|reflexivity]). }
  destruct W as [W0 W1], W' as (W0' & W1' & W2').
  split; [|split; [|split; [|split; [|split]]]].
  - split; [|split; [|split; [|split; [|exact O]]]].
    + intros [|e'] _; cbn; lia.
    + intros e' f He' Hf. rewrite Hlat in Hf.
      destruct e' as [|[|[|e']]]; [| | |lia]; destruct Hf as [<-|[<-|[]]];
      (refine (eq_trans (V' _ true _) _); [vm_compute; reflexivity|]); symmetry;
      (refine (eq_trans (V _ true _) _); [vm_compute; reflexivity|]); reflexivity.
    + intros e' f g He' Hf Hg. rewrite Hlat in Hf, Hg.
      destruct e' as [|[|[|e']]]; [| | |lia]; destruct Hf as [<-|[<-|[]]]; destruct Hg as [<-|[<-|[]]];
      (first [refine (eq_trans (V' _ true _) _); [vm_compute; reflexivity|]|refine (eq_trans (V' _ false _) _); [vm_compute; reflexivity|]]); symmetry;
      (first [refine (eq_trans (V _ true _) _); [vm_compute; reflexivity|]|refine (eq_trans (V _ false _) _); [vm_compute; reflexivity|]]); reflexivity.
    + intros e He. change (n_mixtures_of pair_model) with 2%nat in He.
      destruct e as [|[|e]]; [| |lia]; cbn [rsum pair_part Nat.eqb]; rewrite ?W0, ?W1, ?W0', ?W1', ?W2'; lra.
  - split; [|discriminate]. intros e He. change (n_mixtures_of pair_model) with 2%nat in He.
    destruct e as [|[|e]]; [| |lia]; rewrite ?W0, ?W1; lra.
  - split; [|discriminate]. intros e He. destruct e as [|[|[|e]]]; [| | |lia]; rewrite ?W0', ?W1', ?W2'; lra.
  - reflexivity.
  - vm_compute. repeat constructor.
  - assert (A : val (CInitStates, 0%nat, "mixture_0"%string, "cog"%string) = 1)
      by (refine (eq_trans (V _ true _) _); [vm_compute; reflexivity|reflexivity]).
    assert (B : val (CInitStates, 0%nat, "mixture_1"%string, "cog"%string) = 2)
      by (refine (eq_trans (V _ true _) _); [vm_compute; reflexivity|reflexivity]).
    rewrite A, B. lra.
Qed.
