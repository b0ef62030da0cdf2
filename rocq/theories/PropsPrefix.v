(** The filter is causal: the first periods do not depend on the later ones (C93). *)
Require Import Reals Qreals String Arith ZArith Bool List Lia FunctionalExtensionality.
From Verif Require Import PyBase ListFacts ModelSpec ProcessModel CheckModel SpecModel ProcessModelFacts
  SpecParse SpecIndex IndexFacts SpecFacts ParamsIndex ParseParams ParseFacts AnchorFacts PropsParse ProcessData SpecData DataFacts PropsData
  RSum Kalman Likelihood SpecLikelihood ScheduleFacts LikelihoodRun PropsFiltered SpecModelDensity
  LikelihoodFacts ExampleModels PropsSpec PropsLikelihood QRWitness PropsNumerics Renormalization PropsRenormalization TransitionFunctions PropsTransition Utilities SpecUtilities UtilitiesFacts ModelInputs Runs.
Import ListNotations.
Open Scope R_scope.

(** ** The data that is handed over, as a function *)

Definition is_missing {V} (x : option V) : bool := match x with None => true | Some _ => false end.

Definition given_value (md : model_dict) (n : nat) (df : frame R) (lv : list Z) (id : Z) (t : nat) (x : string) : option R :=
  if existsb (fun c => is_missing (value 1 md df lv id t c)) (controls_of md)
     && existsb (fun e => (fst e =? t)%nat && negb (is_missing (value 1 md df lv id t (snd e)))) (equations md n)
  then None else value 1 md df lv id t x.

Lemma given_handed md n df lv id t x : handed_over 1 md n df lv id t x (given_value md n df lv id t x).
Proof.
  unfold given_value, handed_over. split.
  - intros [(c & Hc & Ec) (v & Hv & Ev)].
    assert (A : existsb (fun c => is_missing (value 1 md df lv id t c)) (controls_of md) = true).
    { apply existsb_exists. exists c. split; [exact Hc|]. now rewrite Ec. }
    assert (B : existsb (fun e => (fst e =? t)%nat && negb (is_missing (value 1 md df lv id t (snd e)))) (equations md n) = true).
    { apply existsb_exists. exists (t, v). split; [exact Hv|]. cbn [fst snd]. rewrite Nat.eqb_refl.
      now destruct (value 1 md df lv id t v). }
    now rewrite A, B.
  - intros Hd. destruct (existsb _ (controls_of md)) eqn:A; [|reflexivity].
    destruct (existsb _ (equations md n)) eqn:B; [|reflexivity]. exfalso. apply Hd.
    apply existsb_exists in A as (c & Hc & Ec). apply existsb_exists in B as ([s v] & Hv & Ev). cbn [fst snd] in Ev.
    apply andb_true_iff in Ev as [Es Ev]. apply Nat.eqb_eq in Es as ->. split.
    + exists c. split; [exact Hc|]. now destruct (value 1 md df lv id t c).
    + exists v. split; [exact Hv|]. now destruct (value 1 md df lv id t v).
Qed.

(** ** Equations *)

Lemma filter_filter_comm {A} (f g : A -> bool) l : filter f (filter g l) = filter g (filter f l).
Proof.
  induction l as [|x l IH]; [reflexivity|]. cbn [filter]. destruct (f x) eqn:F, (g x) eqn:G; cbn [filter]; rewrite ?F, ?G, IH; reflexivity.
Qed.

Lemma first_appearances_app {A} (d : forall x y : A, {x = y} + {x <> y}) l1 l2 :
  exists rest, first_appearances d (l1 ++ l2) = first_appearances d l1 ++ rest /\ incl rest l2.
Proof.
  induction l1 as [|x l1 (rest & E & I)].
  - exists (first_appearances d l2). split; [reflexivity|]. intros x Hx. now apply In_first_appearances in Hx.
  - cbn [app first_appearances]. rewrite E, filter_app. eexists. split; [reflexivity|].
    intros y Hy. apply filter_In in Hy as [Hy _]. now apply I.
Qed.

Lemma short_written md k n : (k <= n)%nat -> exists rest,
  written_equations md n = written_equations (short_model md k) k ++ rest /\ forall t v, In (t, v) rest -> (k <= t)%nat.
Proof.
  intros Hk. unfold written_equations. replace n with (k + (n - k))%nat by lia. rewrite seq_app, flat_map_app, Nat.add_0_l.
  eexists. split; [f_equal|].
  - apply flat_map_ext_in. intros t Ht. apply in_seq in Ht. f_equal. cbn [md_factors md_anchoring short_model]. f_equal.
    rewrite !flat_map_concat_map, map_map. f_equal. apply map_ext_in. intros [f fs] _. cbn [snd].
    cbn [fs_measurements short_factor]. clear - Ht. destruct Ht as [_ Ht]. cbn [Nat.add] in Ht.
    destruct (nth_error (fs_measurements fs) t) as [x|] eqn:E.
    + rewrite (nth_of_nth_error _ _ _ [] E). symmetry. apply nth_of_nth_error. now rewrite nth_error_firstn_lt.
    + rewrite !nth_overflow; [reflexivity| |now apply nth_error_None].
      apply nth_error_None in E. rewrite firstn_length. lia.
  - intros t v Hin. apply in_flat_map in Hin as (s & Hs & Hin). apply in_seq in Hs. apply in_map_iff in Hin as (? & [= <- _] & _). lia.
Qed.

Lemma short_equations md k n : (k <= n)%nat -> exists later,
  equations md n = equations (short_model md k) k ++ later /\ forall t v, In (t, v) later -> (k <= t)%nat.
Proof.
  intros Hk. destruct (short_written md k n Hk) as (rest & E & Hr). unfold equations. rewrite E.
  destruct (first_appearances_app equation_eq_dec (written_equations (short_model md k) k) rest) as (later & -> & I).
  exists later. split; [reflexivity|]. intros t v Hin. apply (Hr t v), I, Hin.
Qed.

(** ** Parameters *)

(** Labels of parameters that matter for the first [k] periods. *)
Definition of_first_periods (k : nat) (lb : label) : Prop :=
  match lb with
  | (CShockSds, t, _, _) | (CTransition, t, _, _) => (t + 1 < k)%nat
  | (_, t, _, _) => (t < k)%nat
  end.

Lemma short_param md k n lb : has_n_periods md n -> (k <= n)%nat -> of_first_periods k lb -> is_param md lb ->
  is_param (short_model md k) lb.
Proof.
  intros Hn Hk Hlb Hi.
  assert (Hsn : has_n_periods (short_model md k) k).
  { pose proof (short_model_periods md k n Hn) as S. now rewrite Nat.min_l in S. }
  assert (Hinv : forall t f v, (t < k)%nat -> involves md t f v -> involves (short_model md k) t f v).
  { intros t f v Ht [M|[_ A]]; [left; now apply short_measures|right]. split; [now exists k|]. exact A. }
  destruct Hi as [t v c (f & Hf) Hc|t v f Hi Hf|t v (f & Hf)|t f m Hm Ht Hf|e f He Hf|e He|e row col fr fc He Hr Hc Hle|t m f fs name Hm Ht Hf Hname];
    cbn [of_first_periods] in Hlb.
  - constructor; [|exact Hc]. exists f. auto.
  - constructor; [auto|]. now rewrite short_model_latent.
  - constructor. exists f. auto.
  - econstructor; [exact Hsn|exact Hlb|]. now rewrite short_model_latent.
  - constructor; [exact He|]. now rewrite short_model_latent.
  - now constructor.
  - econstructor; rewrite ?short_model_latent; eassumption.
  - apply (par_transition _ t k f (short_factor k fs) name Hsn Hlb).
    + apply short_model_In. eauto.
    + rewrite short_model_latent. exact Hname.
Qed.

Lemma short_tfunc nan neg_inf custom md k p p' : process_model md = Ok p -> process_model (short_model md k) = Ok p' ->
  model_tfunc nan neg_inf custom (short_model md k) (p_labels p') = model_tfunc nan neg_inf custom md (p_labels p).
Proof.
  intros Hp Hp'. destruct (p_labels_eq md p Hp) as (A & B & _). destruct (p_labels_eq _ p' Hp') as (A' & B' & _).
  assert (L : l_latent (p_labels p') = l_latent (p_labels p)) by (rewrite A, A'; apply short_model_latent).
  assert (Al : l_all (p_labels p') = l_all (p_labels p)).
  { rewrite (all_eq _ p' Hp'), (all_eq _ p Hp), short_model_latent. reflexivity. }
  unfold model_tfunc, transition_function. rewrite L, Al. apply functional_extensionality. intros pa.
  apply functional_extensionality. intros row. apply functional_extensionality. intros f.
  rewrite (mapM_ext _ (fun f => rbind (dget_err (md_factors md) f) (fun fs =>
    next_state nan neg_inf custom (l_all (p_labels p)) f (fs_transition fs) pa (map row (seq 0 (length (l_all (p_labels p)))))))
    (l_latent (p_labels p))); [reflexivity|].
  intros g _. cbn [md_factors short_model]. unfold dget_err.
  induction (md_factors md) as [|[h fs] fd IH]; [reflexivity|]. cbn [map dget fst snd].
  destruct (String.eqb g h); [reflexivity|exact IH].
Qed.

Lemma purposes_equations md p n : wf_dicts md -> process_model md = Ok p -> has_n_periods md n ->
  purposes (p_update p) = map (fun e => (fst e, is_anchoring_equation md (snd e))) (equations md n).
Proof.
  intros Hwf Hp Hn. rewrite (equations_update md p n Hwf Hp Hn), map_map. unfold purposes. apply map_ext_in.
  intros r Hr. cbn [u_key fst snd]. now rewrite (row_anchoring md p n Hwf Hp Hn r Hr).
Qed.

Lemma p_options_eq md p : process_model md = Ok p -> p_options p = process_estimation_options md.
Proof. intros Hp. apply process_model_inv in Hp. intuition. Qed.

(** ** The theorem *)

Section Short.
  Variable qr : qr_function.
  Variables nan neg_inf : R.
  Variable custom : string -> dict R -> dict R -> list R -> result R.
  Variables (md : model_dict) (p : processed) (n : nat) (df : frame R) (ids lv : list Z) (ar : arrays R)
    (params : list R) (ps : parsed R) (val : label -> R) (k : nat).
  Let md' := short_model md k.
  Variables (p' : processed) (ar' : arrays R) (params' : list R) (ps' : parsed R) (val' : label -> R).
  Hypothesis H : likelihood_setting md p n df ids lv ar params ps.
  Hypothesis Hclean : clean_anchoring md.
  Hypothesis Hval : parameter_values (params_index_of p) params val.
  Hypothesis Hk : (k <= n)%nat.
  Hypothesis H' : likelihood_setting md' p' k df ids lv ar' params' ps'.
  Hypothesis Hval' : parameter_values (params_index_of p') params' val'.
  Hypothesis Hsame : forall lb, In lb (params_index_of p') -> val' lb = val lb.

  Let Hwf : wf_dicts md. Proof. apply H. Qed.
  Let Hp : process_model md = Ok p. Proof. apply H. Qed.
  Let Hn : has_n_periods md n. Proof. apply H. Qed.
  Let Hwf' : wf_dicts md'. Proof. apply H'. Qed.
  Let Hp' : process_model md' = Ok p'. Proof. apply H'. Qed.
  Let Hn' : has_n_periods md' k. Proof. apply H'. Qed.
  Let Hlat : latent_of md' = latent_of md. Proof. apply short_model_latent. Qed.
  Let inp := inputs_of ps ar.
  Let inp' := inputs_of ps' ar'.
  Let tfunc := model_tfunc nan neg_inf custom md (p_labels p).

  Lemma short_values lb : of_first_periods k lb -> val' lb = val lb.
  Proof.
    intros Hlb. destruct (in_dec label_eq_dec lb (params_index_of p')) as [I|N]; [now apply Hsame|].
    rewrite (proj2 Hval' lb N). symmetry. apply (proj2 Hval). intros F. apply N.
    apply (In_params_index md' p' lb Hwf' Hp'). apply (short_param md k n lb Hn Hk Hlb).
    now apply (In_params_index md p lb Hwf Hp).
  Qed.

  Lemma short_clean : clean_anchoring md'.
  Proof.
    destruct Hclean as (A & B & C). split; [|split].
    - rewrite Hlat. exact A.
    - exact B.
    - intros t f o g Ho M. apply short_measures in M as [_ M]. exact (C t f o g Ho M).
  Qed.

  Lemma short_given id t x : (t < k)%nat -> given_value md' k df lv id t x = given_value md n df lv id t x.
  Proof.
    intros Ht. unfold given_value. destruct (short_equations md k n Hk) as (later & E & Hl). rewrite E, existsb_app.
    assert (F : existsb (fun e => (fst e =? t)%nat && negb (is_missing (value 1 md df lv id t (snd e)))) later = false).
    { destruct (existsb _ later) eqn:F; [|reflexivity]. apply existsb_exists in F as ([s v] & Hs & F). cbn [fst] in F.
      apply andb_true_iff in F as [F _]. apply Nat.eqb_eq in F as ->. specialize (Hl t v Hs). lia. }
    rewrite F, orb_false_r. reflexivity.
  Qed.

  Let Hgiven : forall id t x, In id ids -> (t < n)%nat -> handed_over 1 md n df lv id t x (given_value md n df lv id t x).
  Proof. intros. apply given_handed. Qed.
  Let Hgiven' : forall id t x, In id ids -> (t < k)%nat -> handed_over 1 md' k df lv id t x (given_value md' k df lv id t x).
  Proof. intros. apply given_handed. Qed.

  Lemma short_equation_agrees j t v : nth_error (equations md' k) j = Some (t, v) ->
    nth_error (equations md n) j = Some (t, v) -> equation_agrees inp' inp j j t.
  Proof.
    intros Hj' Hj. assert (Ht : (t < k)%nat) by (apply (equations_period md' k t v); eapply nth_error_In, Hj').
    assert (Htn : (t < n)%nat) by lia. unfold equation_agrees, inp, inp'.
    rewrite (loading_form _ _ _ _ _ _ _ _ _ _ H' Hval' j t v Hj'), (loading_form _ _ _ _ _ _ _ _ _ _ H Hval j t v Hj).
    rewrite (control_form _ _ _ _ _ _ _ _ _ _ H' Hval' j t v Hj'), (control_form _ _ _ _ _ _ _ _ _ _ H Hval j t v Hj).
    rewrite (sd_form _ _ _ _ _ _ _ _ _ _ H' Hval' j t v Hj'), (sd_form _ _ _ _ _ _ _ _ _ _ H Hval j t v Hj).
    rewrite (values_form _ _ _ _ _ _ _ _ _ H' _ Hgiven' j t v Hj'), (values_form _ _ _ _ _ _ _ _ _ H _ Hgiven j t v Hj).
    rewrite (controls_form _ _ _ _ _ _ _ _ _ H' _ Hgiven' t Ht), (controls_form _ _ _ _ _ _ _ _ _ H _ Hgiven t Htn).
    rewrite Hlat. repeat split.
    - f_equal. apply map_ext. intros f. apply short_values. exact Ht.
    - f_equal. apply map_ext. intros f. apply short_values. exact Ht.
    - apply short_values. exact Ht.
    - f_equal. apply map_ext. intros id. now apply short_given.
    - f_equal. apply map_ext. intros id. apply map_ext. intros c. now apply short_given.
  Qed.

  Lemma short_transition_agrees t : (S t < k)%nat -> transition_agrees tfunc tfunc inp' inp t.
  Proof.
    intros Ht. unfold transition_agrees, inp, inp'.
    assert (Eo : outcomes_of md' = outcomes_of md) by reflexivity.
    assert (Ei : ignores_constant md' = ignores_constant md) by reflexivity.
    assert (Ea : forall f, is_anchored md' f = is_anchored md f) by reflexivity.
    assert (Eobs : observed_of md' = observed_of md) by reflexivity.
    assert (Es : forall s, (s < k)%nat -> in_scaling (inputs_of ps' ar') s = in_scaling (inputs_of ps ar) s).
    { intros s Hs. rewrite (scaling_form _ _ _ _ _ _ _ _ _ _ H' Hval' s short_clean Hs).
      rewrite (scaling_form _ _ _ _ _ _ _ _ _ _ H Hval s Hclean) by lia.
      rewrite Hlat, Eo, Eobs. do 3 f_equal. apply map_ext. intros fo. apply short_values. exact Hs. }
    assert (Ec : forall s, (s < k)%nat -> in_constants (inputs_of ps' ar') s = in_constants (inputs_of ps ar) s).
    { intros s Hs. rewrite (constants_form _ _ _ _ _ _ _ _ _ _ H' Hval' s short_clean Hs).
      rewrite (constants_form _ _ _ _ _ _ _ _ _ _ H Hval s Hclean) by lia.
      rewrite Hlat, Eo, Eobs, Ei. destruct (ignores_constant md); [reflexivity|].
      do 3 f_equal. apply map_ext. intros fo. apply short_values. exact Hs. }
    split; [|split; [|split; [|split; [|split; [|split]]]]]; try (apply Es; lia); try (apply Ec; lia).
    - f_equal. rewrite (coeffs_form _ _ _ _ _ _ _ _ _ _ H' Hval' t) by lia.
      rewrite (coeffs_form _ _ _ _ _ _ _ _ _ _ H Hval t) by lia.
      rewrite Hlat, Eobs. unfold md'. cbn [md_factors short_model]. rewrite map_map. apply map_ext. intros [f fs]. cbn [fst snd fs_transition short_factor].
      f_equal. apply map_ext. intros x. apply short_values. cbn. lia.
    - rewrite (shock_form _ _ _ _ _ _ _ _ _ _ H' Hval' t) by lia.
      rewrite (shock_form _ _ _ _ _ _ _ _ _ _ H Hval t) by lia. rewrite Hlat. f_equal. apply map_ext.
      intros f. apply short_values. cbn. lia.
    - rewrite (observed_form _ _ _ _ _ _ _ _ _ H' _ Hgiven' t) by lia.
      rewrite (observed_form _ _ _ _ _ _ _ _ _ H _ Hgiven t) by lia. rewrite Eobs.
      f_equal. apply map_ext. intros id. apply map_ext. intros f. apply short_given. lia.
  Qed.

  Lemma short_initial : initial_belief ps' = initial_belief ps.
  Proof.
    assert (Hk1 : (1 <= k)%nat) by exact (n_ge_1 md' p' k df ids lv ar' params' ps' H').
    rewrite (initial_form _ _ _ _ _ _ _ _ _ _ H' Hval'), (initial_form _ _ _ _ _ _ _ _ _ _ H Hval). rewrite Hlat.
    change (n_mixtures_of md') with (n_mixtures_of md). f_equal.
    - do 2 f_equal. apply map_ext. intros e. apply map_ext. intros f. apply short_values. cbn. lia.
    - do 2 f_equal. apply map_ext. intros e. apply map_ext. intros r. apply map_ext. intros c.
      destruct (r <=? c)%nat; [|reflexivity]. apply short_values. cbn. lia.
    - do 2 f_equal. apply map_ext. intros e. f_equal. apply short_values. cbn. lia.
  Qed.

  Lemma short_run recs :
    run_model qr nan tfunc p (length ids) ps ar (code_events 0 (purposes (p_update p))) = Ok recs ->
    exists r1 r2, recs = r1 ++ r2 /\
      run_model qr nan (model_tfunc nan neg_inf custom md' (p_labels p')) p' (length ids) ps' ar'
        (code_events 0 (purposes (p_update p'))) = Ok r1.
  Proof.
    intros E. destruct (short_equations md k n Hk) as (later & Eeq & _). fold md' in Eeq.
    assert (Epu : exists l, purposes (p_update p) = purposes (p_update p') ++ l).
    { rewrite (purposes_equations md p n Hwf Hp Hn), (purposes_equations md' p' k Hwf' Hp' Hn'), Eeq, map_app.
      eexists. reflexivity. }
    destruct Epu as (l & Epu). rewrite Epu in E. destruct (code_events_app (purposes (p_update p')) l 0) as (rest & Ec).
    rewrite Ec in E. unfold run_model in E. apply run_prefix in E as (r1 & r2 & E & ->). exists r1, r2. split; [reflexivity|].
    unfold run_model. pose proof (short_tfunc nan neg_inf custom md k p p' Hp Hp') as T. fold md' in T. rewrite T, short_initial.
    destruct (p_dims_eq md p Hp) as (D1 & D2 & D3 & D4 & _). destruct (p_dims_eq md' p' Hp') as (D1' & D2' & D3' & D4' & _).
    rewrite D1', D2', D3', D4', Hlat. rewrite D1, D2, D3, D4 in E.
    rewrite (p_options_eq _ _ Hp) in E. rewrite (p_options_eq _ _ Hp').
    rewrite <- E. apply run_agrees. apply code_events_Forall.
    - intros i t b Hi. rewrite (purposes_equations md' p' k Hwf' Hp' Hn') in Hi. rewrite nth_error_map in Hi.
      destruct (nth_error (equations md' k) i) as [[s v]|] eqn:Ei; [|discriminate]. injection Hi as <- <-.
      assert (Ag : equation_agrees inp' inp i i s).
      { apply (short_equation_agrees i s v Ei). rewrite Eeq, nth_error_app1; [exact Ei|]. apply nth_error_Some. congruence. }
      unfold ev. cbn [fst snd]. rewrite Nat.add_0_l. destruct (is_anchoring_equation md' v); now constructor.
    - intros i t b b' _ Hi. rewrite (purposes_equations md' p' k Hwf' Hp' Hn') in Hi. rewrite nth_error_map in Hi.
      destruct (nth_error (equations md' k) (S i)) as [[s v]|] eqn:Ei; [|discriminate]. injection Hi as Es _. cbn [fst] in Es. subst s.
      constructor. apply short_transition_agrees. apply (equations_period md' k _ v). eapply nth_error_In, Ei.
  Qed.
End Short.

(** The likelihood of the first [k] periods: if the model is reduced to them and the
    parameters that remain keep their values, everything the filter computes for their
    equations is what the full model computes for them. *)
Theorem C93_first_periods :
  forall qr nan neg_inf custom md p n df ids lv ar params ps val k md' p' ar' params' ps' val' out,
    likelihood_setting md p n df ids lv ar params ps -> clean_anchoring md ->
    parameter_values (params_index_of p) params val ->
    reduce_n_periods md (Z.of_nat k) None = Ok (md', None) -> (k <= n)%nat ->
    likelihood_setting md' p' k df ids lv ar' params' ps' ->
    parameter_values (params_index_of p') params' val' ->
    (forall lb, In lb (params_index_of p') -> val' lb = val lb) ->
    log_likelihood qr nan (model_tfunc nan neg_inf custom md (p_labels p)) p ar true params = Ok out ->
    exists dbg out' dbg',
      log_likelihood qr nan (model_tfunc nan neg_inf custom md' (p_labels p')) p' ar' true params' = Ok out' /\
      out_debug out = Some dbg /\ out_debug out' = Some dbg' /\
      (exists later, equations md n = equations md' k ++ later /\ forall t v, In (t, v) later -> (k <= t)%nat) /\
      do_initial_states dbg' = do_initial_states dbg /\ do_initial_logw dbg' = do_initial_logw dbg /\
      (forall j, (j < length (equations md' k))%nat ->
         do_all_contributions dbg' j = do_all_contributions dbg j /\
         do_residuals dbg' j = do_residuals dbg j /\ do_residual_sds dbg' j = do_residual_sds dbg j /\
         do_filtered_states dbg' j = do_filtered_states dbg j /\ do_logw dbg' j = do_logw dbg j) /\
      (forall i, out_contributions out' i
         = rsum (length (equations md' k)) (fun j => clip_with (p_options p) (do_all_contributions dbg j i))) /\
      out_value out' = rsum (length ids) (out_contributions out').
Proof.
  intros qr nan neg_inf custom md p n df ids lv ar params ps val k md' p' ar' params' ps' val' out
    H Hclean Hval Hred Hk H' Hval' Hsame Hout.
  rewrite reduce_n_periods_eq in Hred. cbn [with_params] in Hred. injection Hred as <-.
  assert (Hwf : wf_dicts md) by apply H. assert (Hp : process_model md = Ok p) by apply H.
  assert (Hn : has_n_periods md n) by apply H. set (md' := short_model md k) in *.
  assert (Hwf' : wf_dicts md') by apply H'. assert (Hp' : process_model md' = Ok p') by apply H'.
  assert (Hn' : has_n_periods md' k) by apply H'.
  destruct (short_equations md k n Hk) as (later & Eeq & Hlater). fold md' in Eeq.
  assert (Hlu : length (p_update p) = length (equations md n)).
  { rewrite (equations_update md p n Hwf Hp Hn). now rewrite map_length. }
  assert (Hlu' : length (p_update p') = length (equations md' k)).
  { rewrite (equations_update md' p' k Hwf' Hp' Hn'). now rewrite map_length. }
  destruct (p_dims_eq md p Hp) as (_ & D2 & _ & D4 & _). destruct (p_dims_eq md' p' Hp') as (_ & D2' & _ & D4' & _).
  destruct (shapes_fit (length ids) (n_mixtures (p_dims p)) (n_observed (p_dims p))) eqn:Hfit.
  - assert (Hfit' : shapes_fit (length ids) (n_mixtures (p_dims p')) (n_observed (p_dims p')) = true).
    { rewrite D2', D4'. rewrite D2, D4 in Hfit. exact Hfit. }
    destruct (likelihood_events qr nan (model_tfunc nan neg_inf custom md (p_labels p)) md p n df ids lv ar params ps true H Hfit) as (recs & out0 & Er & Hl & Eo & Hr).
    rewrite Hout in Eo. injection Eo as <-.
    destruct (likelihood_events qr nan (model_tfunc nan neg_inf custom md' (p_labels p')) md' p' k df ids lv ar' params' ps' true H' Hfit')
      as (recs' & out' & Er' & Hl' & Eo' & Hr').
    destruct (short_run qr nan neg_inf custom md p n df ids lv ar params ps val k p' ar' params' ps' val'
                H Hclean Hval Hk H' Hval' Hsame recs Er) as (r1 & r2 & -> & E1).
    fold md' in E1. rewrite Er' in E1. injection E1 as <-.
    destruct Hr as (_ & _ & _ & Hd). destruct (Hd eq_refl) as (dbg & Hdbg & I1 & I2 & K).
    destruct Hr' as (V' & C' & _ & Hd'). destruct (Hd' eq_refl) as (dbg' & Hdbg' & I1' & I2' & K').
    exists dbg, out', dbg'. split; [exact Eo'|]. split; [exact Hdbg|]. split; [exact Hdbg'|]. split; [eauto|].
    pose proof (short_initial md p n df ids lv ar params ps val k p' ar' params' ps' val' H Hval Hk H' Hval' Hsame) as Ei.
    split; [rewrite I1, I1', Ei; reflexivity|]. split; [rewrite I2, I2', Ei; reflexivity|].
    assert (Hrec : forall j r, nth_error recs' j = Some r -> nth_error (recs' ++ r2) j = Some r).
    { intros j r Hj. rewrite nth_error_app1; [exact Hj|]. apply nth_error_Some. congruence. }
    split; [|split].
    + intros j Hj. destruct (nth_error recs' j) as [r|] eqn:Ej; [|apply nth_error_None in Ej; lia].
      destruct (K j r (Hrec j r Ej)) as (K1 & K2 & K3 & K4 & K5). destruct (K' j r Ej) as (K1' & K2' & K3' & K4' & K5').
      rewrite K1, K2, K3, K4, K5, K1', K2', K3', K4', K5'. repeat split; reflexivity.
    + intros i. rewrite C'. unfold contribution_of. rewrite (p_options_eq _ _ Hp'), (p_options_eq _ _ Hp).
      change (process_estimation_options md') with (process_estimation_options md).
      rewrite <- Hlu', <- Hl', <- (rsum_sum_list recs' (mk_record (fun _ => 0) (fun _ _ _ => 0) (fun _ _ => 0) (fun _ _ => None) (fun _ _ => None))).
      apply rsum_ext. intros j Hj. destruct (nth_error recs' j) as [r|] eqn:Ej; [|apply nth_error_None in Ej; lia].
      rewrite (nth_of_nth_error _ _ _ _ Ej). now rewrite (proj1 (K j r (Hrec j r Ej))).
    + rewrite V'. apply rsum_ext. intros i _. symmetry. apply C'.
  - destruct (p_update p) as [|r u] eqn:Eu.
    + cbn [length] in Hlu. assert (E0 : equations md n = []) by (destruct (equations md n); [reflexivity|discriminate]).
      rewrite E0 in Eeq. symmetry in Eeq. apply app_eq_nil in Eeq as [E0' ->]. rewrite E0' in Hlu'.
      assert (Eu' : p_update p' = []) by (destruct (p_update p'); [reflexivity|discriminate]).
      assert (Hps : parse_for 0 1 ln p params (length ids) = Ok ps) by apply H.
      assert (Hps' : parse_for 0 1 ln p' params' (length ids) = Ok ps') by apply H'.
      unfold log_likelihood in Hout |- *. destruct (ar_shapes md p n df ids lv ar params ps H) as (_ & _ & Ea).
      destruct (ar_shapes md' p' k df ids lv ar' params' ps' H') as (_ & _ & Ea').
      rewrite Ea, Hps in Hout. rewrite Ea', Hps'. cbn [rbind] in Hout |- *.
      rewrite (loop_args_ok md p n df ids lv ar params ps H), Eu in Hout.
      rewrite (loop_args_ok md' p' k df ids lv ar' params' ps' H'), Eu'. cbn [length seq map rbind scan snd] in Hout |- *.
      injection Hout as <-. do 3 eexists. split; [reflexivity|]. cbn [out_debug out_contributions out_value].
      split; [reflexivity|]. split; [reflexivity|].
      pose proof (short_initial md p n df ids lv ar params ps val k p' ar' params' ps' val' H Hval Hk H' Hval' Hsame) as Ei.
      unfold initial_belief in Ei. injection Ei as E1 E2 E3.
      rewrite E0, E0'. cbn [length do_initial_states do_initial_logw].
      split; [exists []; split; [reflexivity|intros t v []]|]. split; [exact E1|]. split; [exact E3|].
      split; [intros j Hj; lia|]. split; [reflexivity|]. rewrite rsum_swap. reflexivity.
    + rewrite (likelihood_misfits qr nan _ md p n df ids lv ar params ps true H Hfit) in Hout by (rewrite Eu; discriminate). discriminate.
Qed.
Print Assumptions C93_first_periods.

(** The example with a constant factor, reduced from three to two periods. *)
Definition kept_short : model_dict := short_model kept_model 2.
Definition kept_short_p : processed := get_ok (process_model kept_short) small_p.
Lemma kept_short_accepted : process_model kept_short = Ok kept_short_p.
Proof. vm_compute. reflexivity. Qed.
Definition kept_short_params : list R := map kept_value (params_index_of kept_short_p).

Lemma kept_short_setting : data_setting kept_short kept_short_p 2 ex_df ex_ids ex_lv.
Proof.
  destruct kept_setting as (H1 & _ & H3 & H4 & H5 & H6 & H7).
  split; [exact (short_model_wf kept_model 2 H1)|]. split; [exact kept_short_accepted|].
  split; [exact (short_model_periods kept_model 2 3 H3)|].
  split; [exact H4|]. split; [exact H5|]. split; [exact H6|exact H7].
Qed.

Lemma kept_short_names : good_names kept_short.
Proof.
  destruct kept_good_names as (G1 & G2 & G3 & G4 & G5 & _). split; [exact G1|].
  split; [exact G2|]. split; [exact G3|]. split; [exact G4|]. split; [exact G5|].
  intros f fs k names [[= <- <-]|[[= <- <-]|[]]] E; discriminate.
Qed.

Lemma kept_short_clean : clean_anchoring kept_short.
Proof. exact (short_clean kept_model 2 kept_clean). Qed.

Lemma kept_short_example : exists ar ps,
  likelihood_setting kept_short kept_short_p 2 (real_frame ex_df) ex_ids ex_lv ar kept_short_params ps.
Proof.
  destruct (real_process kept_short kept_short_p 2 ex_df ex_ids ex_lv
              (get_ok (process_data 1%Z Z.eqb ex_df (p_labels kept_short_p) (p_update kept_short_p) (p_anch kept_short_p) true)
                 ex_arrays) kept_short_setting) as [ar Har].
  { vm_compute. reflexivity. }
  assert (Hl : length kept_short_params = length (params_index_of kept_short_p)) by apply map_length.
  destruct (C09_parsing_succeeds R 0 1 ln kept_short kept_short_p 2 (length ex_ids) kept_short_params) as [ps Hps].
  - apply kept_short_setting.
  - apply (idx_NoDup kept_short kept_short_p); [apply kept_short_setting|exact kept_short_names|exact kept_short_accepted].
  - exact kept_short_accepted.
  - apply kept_short_setting.
  - exact Hl.
  - exact kept_short_clean.
  - lia.
  - apply Nat.leb_le. reflexivity.
  - exists ar, ps. split; [apply real_setting, kept_short_setting|]. split; [exact kept_short_names|].
    split; [exact Har|]. split; [exact Hl|exact Hps].
Qed.

Example C93_nonvacuous : exists ar ps val ar' ps' val' out,
  likelihood_setting kept_model kept_p 3 (real_frame ex_df) ex_ids ex_lv ar kept_params ps /\
  clean_anchoring kept_model /\ parameter_values (params_index_of kept_p) kept_params val /\
  reduce_n_periods kept_model 2 None = Ok (kept_short, None) /\
  likelihood_setting kept_short kept_short_p 2 (real_frame ex_df) ex_ids ex_lv ar' kept_short_params ps' /\
  parameter_values (params_index_of kept_short_p) kept_short_params val' /\
  (forall lb, In lb (params_index_of kept_short_p) -> val' lb = val lb) /\
  log_likelihood gram_schmidt 0 (model_tfunc 0 0 (fun _ _ _ _ => Ok 0) kept_model (p_labels kept_p)) kept_p ar true kept_params = Ok out /\
  length (equations kept_model 3) = 13%nat /\ length (equations kept_short 2) = 9%nat.
Proof.
  destruct kept_example as (ar & ps & H). destruct kept_short_example as (ar' & ps' & H').
  assert (Hnd : NoDup (params_index_of kept_p)) by (apply (idx_NoDup kept_model kept_p); [apply kept_setting|exact kept_good_names|exact kept_model_accepted]).
  assert (Hnd' : NoDup (params_index_of kept_short_p)) by (apply (idx_NoDup kept_short kept_short_p); [apply kept_short_setting|exact kept_short_names|exact kept_short_accepted]).
  destruct (likelihood_events gram_schmidt 0 (model_tfunc 0 0 (fun _ _ _ _ => Ok 0) kept_model (p_labels kept_p))
     kept_model kept_p 3 (real_frame ex_df) ex_ids ex_lv ar kept_params ps true H eq_refl) as (recs & out & _ & _ & Eo & _).
  exists ar, ps, (val_of 0 (params_index_of kept_p) kept_params), ar', ps', (val_of 0 (params_index_of kept_short_p) kept_short_params), out.
  split; [exact H|]. split; [exact kept_clean|]. split; [exact (values_ok _ kept_value Hnd)|]. split; [reflexivity|].
  split; [exact H'|]. split; [exact (values_ok _ kept_value Hnd')|]. split; [|split; [exact Eo|split; reflexivity]].
  intros lb Hlb.
  refine (eq_trans (val_of_values (params_index_of kept_short_p) kept_value lb Hnd' Hlb) (eq_sym (val_of_values (params_index_of kept_p) kept_value lb Hnd _))).
  refine (proj2 (In_params_index kept_model kept_p lb (proj1 kept_setting) kept_model_accepted) _).
  refine (nested_is_param kept_short kept_model 3 lb (nested_short kept_model 2) (proj1 (proj2 (proj2 kept_setting))) _).
  exact (proj1 (In_params_index kept_short kept_short_p lb (proj1 kept_short_setting) kept_short_accepted) Hlb).
Qed.
