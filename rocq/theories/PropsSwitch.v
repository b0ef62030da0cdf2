(** The linear model is the translog model without squares and interactions (C96). *)
Require Import Reals Qreals Lra String Arith ZArith Bool List Lia FunctionalExtensionality.
From Verif Require Import PyBase ListFacts StringFacts ModelSpec ProcessModel CheckModel SpecModel ProcessModelFacts
  SpecParse SpecIndex IndexFacts SpecFacts ParamsIndex ParseParams ParseFacts AnchorFacts PropsParse ProcessData SpecData DataFacts PropsData
  RSum Kalman PropsKalman Likelihood SpecLikelihood ScheduleFacts LikelihoodRun PropsFiltered SpecModelDensity
  LikelihoodFacts ExampleModels PropsSpec PropsLikelihood QRWitness PropsNumerics Renormalization PropsRenormalization
  TransitionFunctions TransitionFacts SpecTransition PropsTransition
  Utilities SpecUtilities UtilitiesFacts ParamsVec ModelInputs Runs Related PropsPrefix PropsRemoved PropsControls.
Import ListNotations.
Open Scope R_scope.

(** A factor of the larger and of the smaller model. *)
Definition switched_factor (a b : string * factor_spec) : Prop :=
  fst a = fst b /\ fs_measurements (snd a) = fs_measurements (snd b) /\
  (fs_transition (snd a) = fs_transition (snd b) \/ fs_transition (snd a) = TStr "translog" /\ fs_transition (snd b) = TStr "linear").

Lemma switched_translog fd : Forall2 switched_factor fd (map (fun kv => (fst kv, switch_transition "translog" "linear" (snd kv))) fd).
Proof.
  induction fd as [|[f fs] fd IH]; constructor; [|exact IH]. split; [reflexivity|]. split; [reflexivity|].
  cbn [snd switch_transition fs_transition]. destruct (fs_transition fs) as [s| |]; [|now left|now left].
  destruct (String.eqb s "translog") eqn:E; [right|now left]. apply String.eqb_eq in E as ->. now split.
Qed.

Lemma switched_linear fd : Forall2 switched_factor (map (fun kv => (fst kv, switch_transition "linear" "translog" (snd kv))) fd) fd.
Proof.
  induction fd as [|[f fs] fd IH]; constructor; [|exact IH]. split; [reflexivity|]. split; [reflexivity|].
  cbn [snd switch_transition fs_transition]. destruct (fs_transition fs) as [s| |]; [|now left|now left].
  destruct (String.eqb s "linear") eqn:E; [right|now left]. apply String.eqb_eq in E as ->. now split.
Qed.

Lemma switched_names fd fd' : Forall2 switched_factor fd fd' -> map fst fd' = map fst fd.
Proof. induction 1 as [|a b l l' [E _] _ IH]; [reflexivity|]. cbn [map]. now rewrite E, IH. Qed.

Lemma switched_written t fd fd' : Forall2 switched_factor fd fd' ->
  flat_map (fun ffs : string * factor_spec => nth t (fs_measurements (snd ffs)) []) fd' = flat_map (fun ffs => nth t (fs_measurements (snd ffs)) []) fd.
Proof. induction 1 as [|a b l l' (_ & E & _) _ IH]; [reflexivity|]. cbn [flat_map]. now rewrite E, IH. Qed.

Lemma switched_In fd fd' f fs' : Forall2 switched_factor fd fd' -> In (f, fs') fd' ->
  exists fs, In (f, fs) fd /\ fs_measurements fs = fs_measurements fs'.
Proof.
  induction 1 as [|[g a] [g' b] l l' (E & Em & _) _ IH]; intros Hin; [destruct Hin|]. cbn [fst snd] in *. subst g'.
  destruct Hin as [[= -> ->]|Hin]; [exists a; split; [now left|exact Em]|].
  destruct (IH Hin) as (fs & A & B). exists fs. split; [now right|exact B].
Qed.

Lemma switched_dget fd fd' g : Forall2 switched_factor fd fd' -> In g (map fst fd) ->
  exists fs fs', dget fd g = Some fs /\ dget fd' g = Some fs' /\ In (g, fs') fd' /\ switched_factor (g, fs) (g, fs').
Proof.
  induction 1 as [|[h a] [h' b] l l' S _ IH]; intros Hgin; [destruct Hgin|].
  assert (h = h') as <- by exact (proj1 S). cbn [dget fst snd]. destruct (String.eqb g h) eqn:E.
  - apply String.eqb_eq in E as <-. exists a, b. split; [reflexivity|]. split; [reflexivity|]. split; [now left|exact S].
  - destruct Hgin as [F|Hgin]; [cbn [fst] in F; subst; rewrite String.eqb_refl in E; discriminate|].
    destruct (IH Hgin) as (fs & fs' & P1 & P2 & P3 & P4). exists fs, fs'. split; [exact P1|]. split; [exact P2|]. split; [now right|exact P4].
Qed.

Lemma states_by_name (all : list string) (row : nat -> R) : NoDup all -> forall k,
  exists state, map state all = map row (seq k (length all)).
Proof.
  induction 1 as [|x l Hx _ IH]; intros k; [now exists (fun _ => 0)|]. destruct (IH (S k)) as (state & E).
  exists (fun g => if string_dec g x then row k else state g). cbn [map length seq]. destruct (string_dec x x) as [_|F]; [|congruence].
  f_equal. rewrite <- E. apply map_ext_in. intros y Hy. destruct (string_dec y x) as [->|_]; [contradiction|reflexivity].
Qed.

Section Switch.
  Variable qr : qr_function.
  Variables nan neg_inf : R.
  Variable custom : string -> dict R -> dict R -> list R -> result R.
  Variables (md : model_dict) (p : processed) (n : nat) (df : frame R) (ids lv : list Z) (ar : arrays R)
    (params : list R) (ps : parsed R) (val : label -> R) (factors' : dict factor_spec).
  Let md' := mk_md factors' (md_observed md) (md_controls md) (md_stagemap md) (md_anchoring md) (md_options md).
  Hypothesis Hfac : Forall2 switched_factor (md_factors md) factors'.
  Variables (p' : processed) (ar' : arrays R) (params' : list R) (ps' : parsed R) (val' : label -> R).
  Hypothesis H : likelihood_setting md p n df ids lv ar params ps.
  Hypothesis Hclean : clean_anchoring md.
  Hypothesis Hval : parameter_values (params_index_of p) params val.
  Hypothesis H' : likelihood_setting md' p' n df ids lv ar' params' ps'.
  Hypothesis Hval' : parameter_values (params_index_of p') params' val'.
  Hypothesis Hsame : forall lb, In lb (params_index_of p') -> val' lb = val lb.
  Hypothesis Hzero : forall lb, In lb (params_index_of p) -> ~ In lb (params_index_of p') -> val lb = 0.

  Let Hwf : wf_dicts md. Proof. apply H. Qed.
  Let Hp : process_model md = Ok p. Proof. apply H. Qed.
  Let Hn : has_n_periods md n. Proof. apply H. Qed.
  Let Hg : good_names md. Proof. apply H. Qed.
  Let Hwf' : wf_dicts md'. Proof. apply H'. Qed.
  Let Hp' : process_model md' = Ok p'. Proof. apply H'. Qed.
  Let Hn' : has_n_periods md' n. Proof. apply H'. Qed.
  Let inp := inputs_of ps ar.
  Let inp' := inputs_of ps' ar'.
  Let tfunc := model_tfunc nan neg_inf custom md (p_labels p).
  Let tfunc' := model_tfunc nan neg_inf custom md' (p_labels p').
  Let all := (latent_of md ++ observed_of md)%list.

  Lemma switched_values lb : val lb = val' lb.
  Proof.
    destruct (in_dec label_eq_dec lb (params_index_of p')) as [I|N]; [symmetry; now apply Hsame|].
    rewrite (proj2 Hval' lb N). destruct (in_dec label_eq_dec lb (params_index_of p)) as [J|M]; [now apply Hzero|].
    now apply (proj2 Hval).
  Qed.

  Lemma switched_latent : latent_of md' = latent_of md.
  Proof. exact (switched_names _ _ Hfac). Qed.

  Lemma switched_equations : equations md' n = equations md n.
  Proof.
    unfold equations, written_equations, md'. cbn [md_factors md_anchoring]. f_equal. apply flat_map_ext. intros t. f_equal. f_equal.
    exact (switched_written t _ _ Hfac).
  Qed.

  Lemma switched_measures t f v : measures md' t f v -> measures md t f v.
  Proof.
    intros (fs' & ms & Hin & Hms & Hv). unfold md' in Hin. cbn [md_factors] in Hin.
    pose proof (switched_In _ _ _ _ Hfac Hin) as E.
    destruct E as (fs & Hin' & Em). exists fs, ms. rewrite Em. auto.
  Qed.

  Lemma switched_clean : clean_anchoring md'.
  Proof.
    destruct Hclean as (A & B & C). split; [|split; [exact B|]].
    - intros f o Ho. rewrite switched_latent. exact (A f o Ho).
    - intros t f o g Ho Hm. exact (C t f o g Ho (switched_measures _ _ _ Hm)).
  Qed.

  (** The coefficients of squares and interactions are zero. *)
  Lemma no_squares t f fs' g : In (f, fs') factors' -> fs_transition fs' = TStr "linear" -> In g all ->
    val (CTransition, t, f, (g ++ " ** 2")%string) = 0.
  Proof.
    intros Hin Hl Hgin. rewrite switched_values. apply (proj2 Hval'). intros F. apply (In_params_index md' p' _ Hwf' Hp') in F.
    inversion F as [| | | | | | |s m g' fs name Hm Hs Hin' Hname]; subst.
    assert (fs = fs') as -> by (apply (In_dget _ _ _ (proj1 Hwf')) in Hin'; apply (In_dget factors' _ _ (proj1 Hwf')) in Hin; cbn [md_factors md'] in Hin'; congruence).
    rewrite Hl, switched_latent in Hname. cbn [transition_parameters] in Hname. apply in_app_or in Hname as [Hname|[Hname|[]]].
    - destruct Hg as (_ & _ & G & _). destruct (G _ Hname) as (G1 & _). exact (has_star_not _ _ G1 eq_refl).
    - revert Hname. apply has_star_not. unfold without_char. cbn. intuition discriminate.
  Qed.

  Lemma no_interactions t f fs' g h : In (f, fs') factors' -> fs_transition fs' = TStr "linear" ->
    val (CTransition, t, f, (g ++ " * " ++ h)%string) = 0.
  Proof.
    intros Hin Hl. rewrite switched_values. apply (proj2 Hval'). intros F. apply (In_params_index md' p' _ Hwf' Hp') in F.
    inversion F as [| | | | | | |s m g' fs name Hm Hs Hin' Hname]; subst.
    assert (fs = fs') as -> by (apply (In_dget _ _ _ (proj1 Hwf')) in Hin'; apply (In_dget factors' _ _ (proj1 Hwf')) in Hin; cbn [md_factors md'] in Hin'; congruence).
    rewrite Hl, switched_latent in Hname. cbn [transition_parameters] in Hname. apply in_app_or in Hname as [Hname|[Hname|[]]].
    - destruct Hg as (_ & _ & G & _). destruct (G _ Hname) as (G1 & _). revert G1. cbn [append]. intros G1. exact (has_star_not2 _ _ _ G1 eq_refl).
    - revert Hname. cbn [append]. apply has_star_not2. unfold without_char. cbn. intuition discriminate.
  Qed.

  Lemma switched_transition_function t : (t + 1 < n)%nat -> tfunc (in_coeffs inp t) = tfunc' (in_coeffs inp' t).
  Proof.
    intros Ht. apply functional_extensionality. intros row. apply functional_extensionality. intros j.
    unfold tfunc, tfunc', model_tfunc, transition_function, inp, inp'.
    destruct (p_labels_eq md p Hp) as (A & _). destruct (p_labels_eq _ p' Hp') as (A' & _).
    rewrite A', A, (all_eq _ p Hp), (all_eq _ p' Hp'), switched_latent.
    change (observed_of md') with (observed_of md). fold all.
    rewrite (coeffs_form _ _ _ _ _ _ _ _ _ _ H Hval t Ht), (coeffs_form _ _ _ _ _ _ _ _ _ _ H' Hval' t Ht).
    rewrite switched_latent. change (observed_of md') with (observed_of md). fold all.
    destruct (states_by_name all row (proj1 Hg) 0) as (state & Es). rewrite <- Es.
    set (cf := map _ (md_factors md)). set (cf' := map _ (md_factors md')).
    match goal with |- match ?a with _ => _ end = match ?b with _ => _ end => assert (E : a = b); [|now rewrite E] end.
    apply mapM_ext. intros g Hgin. unfold dget_err.
    assert (Hd : exists fs fs', dget (md_factors md) g = Some fs /\ dget factors' g = Some fs' /\ In (g, fs') factors' /\
      switched_factor (g, fs) (g, fs')).
    { exact (switched_dget _ _ g Hfac Hgin). }
    destruct Hd as (fs & fs' & D & D' & Hin' & _ & _ & Htr). unfold md'. cbn [md_factors]. rewrite D, D'. cbn [rbind].
    assert (Hc : forall (v : label -> R) (fd : dict factor_spec) x, dget fd g = Some x ->
      dget (map (fun ffs => (fst ffs, map (fun name => v (CTransition, t, fst ffs, name)) (transition_parameters all (fs_transition (snd ffs))))) fd) g
      = Some (map (fun name => v (CTransition, t, g, name)) (transition_parameters all (fs_transition x)))).
    { intros v fd x. clear. induction fd as [|[h y] fd IH]; [discriminate|]. cbn [map dget fst snd].
      destruct (String.eqb g h) eqn:E; [apply String.eqb_eq in E as <-; intros [= ->]; reflexivity|exact IH]. }
    pose proof (Hc val (md_factors md) fs D) as C1. fold cf in C1. pose proof (Hc val' factors' fs' D') as C2.
    change (dget cf' g = Some (map (fun name => val' (CTransition, t, g, name)) (transition_parameters all (fs_transition fs')))) in C2.
    assert (Ev : val' = val) by (apply functional_extensionality; intros lb; symmetry; apply switched_values). rewrite Ev in C2.
    destruct Htr as [E|[E1 E2]].
    - cbn [snd] in E. rewrite <- E in C2 |- *. unfold next_state, dget_err. rewrite C1, C2. reflexivity.
    - cbn [snd] in E1, E2. rewrite E1 in C1 |- *. rewrite E2 in C2 |- *. unfold next_state. cbn [tf_of_string]. unfold dget_err.
      rewrite C1, C2. destruct (dget (factor_states all (map state all)) g) as [own|]; [|reflexivity]. cbn [rbind eval_tf].
      apply (proj1 (C58_nesting all (fun name => val (CTransition, t, g, name)) state)).
      + intros f Hf. exact (no_squares t g fs' f Hin' E2 Hf).
      + intros f h _. exact (no_interactions t g fs' f h Hin' E2).
  Qed.

  Let given := given_value md n df lv.
  Let Hgiven : forall id t x, In id ids -> (t < n)%nat -> handed_over 1 md n df lv id t x (given id t x).
  Proof. intros. apply given_handed. Qed.
  Let Hgiven' : forall id t x, In id ids -> (t < n)%nat -> handed_over 1 md' n df lv id t x (given id t x).
  Proof.
    intros id t x Hid Ht. destruct (given_handed md n df lv id t x) as [A B].
    assert (E : discarded 1 md' n df lv id t <-> discarded 1 md n df lv id t).
    { unfold discarded. rewrite switched_equations. reflexivity. }
    split.
    - intros D. apply A, E, D.
    - intros D. apply B. intros F. apply D, E, F.
  Qed.

  Lemma switched_transition t : (S t < n)%nat -> transition_agrees tfunc tfunc' inp inp' t.
  Proof.
    intros Ht.
    assert (Es : forall s, (s < n)%nat -> in_scaling inp s = in_scaling inp' s).
    { intros s Hs. refine (related_scaling md p n df lv ar params ps val md' p' n df lv ar' params' ps' val' ids H Hval Hclean H' Hval' switched_clean
        switched_latent eq_refl eq_refl s Hs Hs _). intros fo Hfo. apply switched_values. }
    assert (Ec : forall s, (s < n)%nat -> in_constants inp s = in_constants inp' s).
    { intros s Hs. refine (related_constants md p n df lv ar params ps val md' p' n df lv ar' params' ps' val' ids H Hval Hclean H' Hval' switched_clean
        switched_latent eq_refl eq_refl eq_refl s Hs Hs _). intros fo Hfo. apply switched_values. }
    split; [|split; [|split; [|split; [|split; [|split]]]]]; try (apply Es; lia); try (apply Ec; lia).
    - apply switched_transition_function. lia.
    - refine (related_shocks md p n df lv ar params ps val md' p' n df lv ar' params' ps' val' ids H Hval H' Hval' switched_latent t _ _ _); try lia.
      intros f _. apply switched_values.
    - refine (related_observed md p n df lv ar params ps md' p' n df lv ar' params' ps' ids H H' eq_refl _ _ Hgiven Hgiven' t _ _ _); try lia.
      intros id x Hid Hx. reflexivity.
  Qed.

  Lemma switched_initial : initial_belief ps = initial_belief ps'.
  Proof.
    refine (related_initial md p n df lv ar params ps val md' p' n df lv ar' params' ps' val' ids H Hval H' Hval' switched_latent eq_refl _ _ _);
      intros; apply switched_values.
  Qed.

  Lemma switched_run :
    run_model qr nan tfunc p (length ids) ps ar (code_events 0 (purposes (p_update p)))
    = run_model qr nan tfunc' p' (length ids) ps' ar' (code_events 0 (purposes (p_update p'))).
  Proof.
    unfold run_model. rewrite <- switched_initial.
    destruct (p_dims_eq md p Hp) as (D1 & D2 & D3 & D4 & _). destruct (p_dims_eq md' p' Hp') as (D1' & D2' & D3' & D4' & _).
    rewrite D1', D2', D3', D4', D1, D2, D3, D4, switched_latent.
    rewrite (p_options_eq _ _ Hp), (p_options_eq _ _ Hp').
    rewrite (purposes_equations md p n Hwf Hp Hn), (purposes_equations md' p' n Hwf' Hp' Hn'), switched_equations.
    apply (run_agrees qr nan tfunc tfunc' (length ids) (n_mixtures_of md) (length (latent_of md)) (length (observed_of md))
      (S (length (controls_of md))) _ inp inp').
    apply code_events_Forall.
    - intros i t b Hi. rewrite nth_error_map in Hi.
      destruct (nth_error (equations md n) i) as [[s v]|] eqn:Ei; [|discriminate]. injection Hi as <- <-.
      assert (Ei' : nth_error (equations md' n) i = Some (s, v)) by (rewrite switched_equations; exact Ei).
      assert (Ag : equation_agrees inp inp' i i s).
      { refine (related_equation md p n df lv ar params ps val md' p' n df lv ar' params' ps' val' ids H Hval H' Hval' switched_latent
          given given Hgiven Hgiven' i i s v Ei Ei' eq_refl _ _ _ _); intros; try apply switched_values; reflexivity. }
      unfold ev. cbn [fst snd]. rewrite Nat.add_0_l.
      change (is_anchoring_equation md' v) with (is_anchoring_equation md v).
      destruct (is_anchoring_equation md v); now constructor.
    - intros i t b b' _ Hi. rewrite nth_error_map in Hi.
      destruct (nth_error (equations md n) (S i)) as [[s v]|] eqn:Ei; [|discriminate]. injection Hi as Es _. cbn [fst] in Es. subst s.
      constructor. apply switched_transition. apply (equations_period md n _ v). eapply nth_error_In, Ei.
  Qed.
End Switch.

(** *** C96 Switching between linear and translog functions
    [md] is a translog version of [md']: [md'] was obtained from it with
    switch_translog_to_linear, or [md] from [md'] with switch_linear_to_translog.  If the
    parameters of [md] that [md'] does not have (the coefficients of squares and
    interactions) are zero and the others have the same values, the two models have the
    same likelihood and the same debug outputs on all data. *)
Theorem C96_switched_likelihood :
  forall qr nan neg_inf custom md p n df ids lv ar params ps val md' p' ar' params' ps' val' debug,
    likelihood_setting md p n df ids lv ar params ps -> clean_anchoring md ->
    parameter_values (params_index_of p) params val ->
    switch_translog_to_linear md None = Ok (md', None) \/ switch_linear_to_translog md' None = Ok (md, None) ->
    likelihood_setting md' p' n df ids lv ar' params' ps' ->
    parameter_values (params_index_of p') params' val' ->
    (forall lb, In lb (params_index_of p') -> val' lb = val lb) ->
    (forall lb, In lb (params_index_of p) -> ~ In lb (params_index_of p') -> val lb = 0) ->
    match log_likelihood qr nan (model_tfunc nan neg_inf custom md (p_labels p)) p ar debug params,
          log_likelihood qr nan (model_tfunc nan neg_inf custom md' (p_labels p')) p' ar' debug params' with
    | Ok out, Ok out' => same_output (length ids) (length (equations md n)) (n_mixtures_of md) (length (latent_of md)) out out'
    | Err e, Err e' => e = e'
    | _, _ => False
    end.
Proof.
  intros qr nan neg_inf custom md p n df ids lv ar params ps val md' p' ar' params' ps' val' debug
    H Hclean Hval Hsw H' Hval' Hsame Hzero.
  assert (S : exists factors', md' = mk_md factors' (md_observed md) (md_controls md) (md_stagemap md) (md_anchoring md) (md_options md) /\
    Forall2 switched_factor (md_factors md) factors').
  { destruct Hsw as [E|E]; injection E as <-.
    - eexists. split; [reflexivity|]. apply switched_translog.
    - exists (md_factors md'). split; [now destruct md'|]. apply switched_linear. }
  destruct S as (factors' & -> & Hfac).
  set (md' := mk_md factors' (md_observed md) (md_controls md) (md_stagemap md) (md_anchoring md) (md_options md)) in *.
  apply (same_runs qr nan _ md p n df ids lv ar params ps _ md' p' df lv ar' params' ps' debug H H'); try reflexivity.
  - exact (switched_equations md n factors' Hfac).
  - exact (switched_run qr nan neg_inf custom md p n df ids lv ar params ps val factors' Hfac p' ar' params' ps' val'
      H Hclean Hval H' Hval' Hsame Hzero).
  - exact (switched_initial md p n df ids lv ar params ps val factors' Hfac p' ar' params' ps' val' H Hval H' Hval' Hsame Hzero).
Qed.
Print Assumptions C96_switched_likelihood.

(** The example with a translog and a constant factor. *)
Definition lin_model : model_dict := map_factors (switch_transition "translog" "linear") kept_model.
Definition lin_p : processed := get_ok (process_model lin_model) small_p.
Lemma lin_accepted : process_model lin_model = Ok lin_p.
Proof. vm_compute. reflexivity. Qed.

Definition lin_value (lb : label) : R := if label_mem lb (params_index_of lin_p) then kept_value lb else 0.

Lemma lin_setting : data_setting lin_model lin_p 3 ex_df ex_ids ex_lv.
Proof.
  destruct kept_setting as (H1 & _ & H3 & H4 & H5 & H6 & H7).
  split; [exact H1|]. split; [exact lin_accepted|].
  split; [exact (proj2 (map_factors_periods (switch_transition "translog" "linear") kept_model 3 (switch_length _ _)) H3)|].
  split; [exact H4|]. split; [exact H5|]. split; [exact H6|exact H7].
Qed.

Lemma lin_good_names : good_names lin_model.
Proof.
  destruct kept_good_names as (G1 & G2 & G3 & G4 & G5 & _). split; [exact G1|].
  split; [exact G2|]. split; [exact G3|]. split; [exact G4|]. split; [exact G5|].
  intros f fs k names [[= <- <-]|[[= <- <-]|[]]] E; discriminate.
Qed.

Lemma lin_clean : clean_anchoring lin_model.
Proof.
  destruct kept_clean as (C1 & C2 & C3). split; [exact C1|]. split; [exact C2|].
  intros t f o g Ho Hm. apply (C3 t f o g); [exact Ho|].
  exact (switched_measures kept_model (md_factors lin_model) (switched_translog (md_factors kept_model)) t _ _ Hm).
Qed.

Example C96_nonvacuous : exists ar ps val ar' ps' val',
  likelihood_setting kept_model kept_p 3 (real_frame ex_df) ex_ids ex_lv ar (map lin_value (params_index_of kept_p)) ps /\
  clean_anchoring kept_model /\
  parameter_values (params_index_of kept_p) (map lin_value (params_index_of kept_p)) val /\
  switch_translog_to_linear kept_model None = Ok (lin_model, None) /\ switch_linear_to_translog lin_model None = Ok (kept_model, None) /\
  likelihood_setting lin_model lin_p 3 (real_frame ex_df) ex_ids ex_lv ar' (map lin_value (params_index_of lin_p)) ps' /\
  parameter_values (params_index_of lin_p) (map lin_value (params_index_of lin_p)) val' /\
  (forall lb, In lb (params_index_of lin_p) -> val' lb = val lb) /\
  (forall lb, In lb (params_index_of kept_p) -> ~ In lb (params_index_of lin_p) -> val lb = 0) /\
  val (CTransition, 0%nat, "cog"%string, "soc"%string) = 1 /\
  map (fun fa => fs_transition (snd fa)) (md_factors lin_model) = [TStr "linear"; TStr "constant"] /\
  length (params_index_of kept_p) = (length (params_index_of lin_p) + 12)%nat.
Proof.
  destruct (any_example kept_model kept_p 3 ex_df ex_ids ex_lv
    (get_ok (process_data 1%Z Z.eqb ex_df (p_labels kept_p) (p_update kept_p) (p_anch kept_p) true) ex_arrays) lin_value
    kept_setting kept_good_names kept_clean) as (ar & ps & H).
  { lia. } { apply Nat.leb_le. reflexivity. } { vm_compute. reflexivity. }
  destruct (any_example lin_model lin_p 3 ex_df ex_ids ex_lv
    (get_ok (process_data 1%Z Z.eqb ex_df (p_labels lin_p) (p_update lin_p) (p_anch lin_p) true) ex_arrays) lin_value
    lin_setting lin_good_names lin_clean) as (ar' & ps' & H').
  { lia. } { apply Nat.leb_le. reflexivity. } { vm_compute. reflexivity. }
  assert (Hnd : NoDup (params_index_of kept_p)) by (apply (idx_NoDup kept_model kept_p); [apply kept_setting|exact kept_good_names|exact kept_model_accepted]).
  assert (Hnd' : NoDup (params_index_of lin_p)) by (apply (idx_NoDup lin_model lin_p); [apply lin_setting|exact lin_good_names|exact lin_accepted]).
  exists ar, ps, (val_of 0 (params_index_of kept_p) (map lin_value (params_index_of kept_p))), ar', ps',
    (val_of 0 (params_index_of lin_p) (map lin_value (params_index_of lin_p))).
  split; [exact H|]. split; [exact kept_clean|]. split; [exact (values_ok _ lin_value Hnd)|]. split; [reflexivity|]. split; [reflexivity|].
  split; [exact H'|]. split; [exact (values_ok _ lin_value Hnd')|]. split; [|split; [|split; [|split]]].
  - intros lb Hlb.
    refine (eq_trans (val_of_values (params_index_of lin_p) lin_value lb Hnd' Hlb) (eq_sym (val_of_values (params_index_of kept_p) lin_value lb Hnd _))).
    refine (proj1 (label_mem_In _ _) (proj1 (forallb_forall (fun lb => label_mem lb (params_index_of kept_p)) (params_index_of lin_p)) _ lb Hlb)).
    vm_compute. reflexivity.
  - intros lb Hlb N. refine (eq_trans (val_of_values (params_index_of kept_p) lin_value lb Hnd Hlb) _). unfold lin_value.
    destruct (label_mem lb (params_index_of lin_p)) eqn:E; [|reflexivity]. destruct N. exact (proj1 (label_mem_In lb _) E).
  - refine (eq_trans (val_of_values (params_index_of kept_p) lin_value _ Hnd _) _); [|reflexivity].
    refine (proj1 (label_mem_In _ _) _). vm_compute. reflexivity.
  - reflexivity.
  - vm_compute. reflexivity.
Qed.
