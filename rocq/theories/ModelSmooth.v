(** The log likelihood of a model as a function of one of its parameters is
    differentiable. *)
From Coquelicot Require Import Coquelicot.
Require Import Reals Qreals Lra Lia Psatz Arith ZArith Bool String List.
From Verif Require Import PyBase ListFacts ModelSpec ProcessModel CheckModel SpecModel ProcessModelFacts
  SpecParse SpecIndex IndexFacts ParamsIndex ParseParams ParseFacts AnchorFacts PropsSpec PropsParse ParamsVec ProcessData SpecData PropsData
  RSum Kalman SpecKalman KalmanFacts PredictFacts Clipping Likelihood SpecLikelihood ScheduleFacts LikelihoodFacts
  LikelihoodRun PropsKalman LikelihoodLocal PropsFiltered TransitionFunctions SpecTransition TransitionFacts PropsTransition
  SpecStateSpace SpecModelDensity ModelDensityFacts ModelInputs QRSigns PropsNumerics Maximization SpecGradient PropsGradient
  PropsLikelihood Smooth CholeskySmooth FilterSmooth.
Import ListNotations.
Open Scope R_scope.

(** ** Lists of differentiable entries *)

Definition entry_of {A} (g : A -> R) (s : A + R) : R := match s with inl a => g a | inr c => c end.

Lemma mask_set_entries {A} mask : forall (l : list A) (base : list R),
  exists sel : list (A + R), (forall s, In s sel -> match s with inl a => In a l | inr c => In c base end) /\
    forall g, mask_set mask (map g l) base = map (entry_of g) sel.
Proof.
  induction mask as [|[] mask IH]; intros l base.
  - exists (map inr base). split; [intros s Hs; apply in_map_iff in Hs as (c & <- & Hc); exact Hc|].
    intros g. rewrite map_map. cbn. now rewrite map_id.
  - destruct base as [|c base]; [exists []; split; [intros s []|reflexivity]|]. destruct l as [|a l].
    + exists (map inr (c :: base)). split; [intros s Hs; apply in_map_iff in Hs as (d & <- & Hd); exact Hd|].
      intros g. rewrite map_map. cbn. now rewrite map_id.
    + destruct (IH l base) as (sel & Hs & E). exists (inl a :: sel). split.
      * intros s [<-|H]; [now left|]. specialize (Hs s H). destruct s; now right.
      * intros g. cbn [map mask_set entry_of]. now rewrite E.
  - destruct base as [|c base]; [exists []; split; [intros s []|reflexivity]|].
    destruct (IH l base) as (sel & Hs & E). exists (inr c :: sel). split.
    + intros s [<-|H]; [now left|]. specialize (Hs s H). destruct s; [exact Hs|now right].
    + intros g. cbn [map mask_set entry_of]. now rewrite E.
Qed.

Lemma mask_set_length mask : forall vals row : list R, length (mask_set mask vals row) = length row.
Proof.
  induction mask as [|[] mask IH]; intros vals [|r row]; try reflexivity; cbn [mask_set].
  - destruct vals; [reflexivity|]. cbn [length]. now rewrite IH.
  - cbn [length]. now rewrite IH.
Qed.

Lemma sm_arr1_map {A} (g : R -> A -> R) (l : list A) x a :
  (forall e, In e l -> smooth (fun y => g y e) x) -> smooth (fun y => arr1 (map (g y) l) a) x.
Proof.
  intros H. unfold arr1. destruct (nth_error l a) as [e|] eqn:E.
  - apply (sm_ext (fun y => g y e)); [|apply H; eapply nth_error_In, E]. intros y.
    now rewrite (nth_of_nth_error _ a _ 0 (map_nth_error _ _ _ E)).
  - apply (sm_ext (fun _ => 0)); [|apply sm_const]. intros y. rewrite nth_overflow; [reflexivity|].
    rewrite map_length. now apply nth_error_None.
Qed.

Lemma sm_sum_of {A} (l : list A) (f : R -> A -> R) x :
  (forall a, In a l -> smooth (fun y => f y a) x) -> smooth (fun y => sum_of l (f y)) x.
Proof.
  induction l as [|a l IH]; intros H; cbn [sum_of]; [apply sm_const|].
  apply sm_plus; [apply H; now left|apply IH; intros; apply H; now right].
Qed.

Lemma sum_of_pos {A} (l : list A) f : (forall a, In a l -> 0 < f a) -> l <> [] -> 0 < sum_of l f.
Proof.
  intros H N. assert (G : forall l', (forall a, In a l' -> 0 < f a) -> 0 <= sum_of l' f).
  { induction l' as [|a l' IH]; intros H'; cbn [sum_of]; [lra|].
    pose proof (H' a (or_introl eq_refl)). pose proof (IH (fun b Hb => H' b (or_intror Hb))). lra. }
  destruct l as [|a l]; [contradiction|]. cbn [sum_of].
  pose proof (H a (or_introl eq_refl)). pose proof (G l (fun b Hb => H b (or_intror Hb))). lra.
Qed.

(** ** The documented transition functions *)

Lemma sm_documented all own s (x : R) (beta state : R -> string -> R) :
  In own all ->
  (forall name, smooth (fun y => beta y name) x) -> (forall g, In g all -> smooth (fun y => state y g) x) ->
  (s = "log_ces" \/ s = "log_ces_general" -> forall g, In g all -> 0 < beta x g)%string ->
  (s = "log_ces"%string -> beta x "phi"%string <> 0) ->
  In s ["linear"; "translog"; "linear_and_squares"; "log_ces"; "log_ces_general"; "constant"]%string ->
  exists F : R -> R, smooth F x /\ locally x (fun y : R => documented all (beta y) (state y) own s (F y)).
Proof.
  intros Hown Hb Hs Hg Hphi Hin.
  assert (Lin : smooth (fun y => linear_part all (beta y) (state y)) x).
  { unfold linear_part. apply (sm_sum_of all (fun y f => beta y f * state y f)). intros a Ha. apply sm_mult; auto. }
  assert (Sq : smooth (fun y => square_part all (beta y) (state y)) x).
  { unfold square_part. apply (sm_sum_of all (fun y f => beta y (f ++ " ** 2")%string * (state y f * state y f))).
    intros a Ha. apply sm_mult; [auto|]. apply sm_mult; auto. }
  assert (Int : smooth (fun y => interaction_part all (beta y) (state y)) x).
  { unfold interaction_part.
    apply (sm_sum_of (pairs_in_order all) (fun y ab => beta y (fst ab ++ " * " ++ snd ab)%string * (state y (fst ab) * state y (snd ab)))).
    intros [a b] Ha. cbn [fst snd].
    assert (In a all /\ In b all) as [A B].
    { clear -Ha. induction all as [|c l IH]; [destruct Ha|]. cbn [pairs_in_order] in Ha. apply in_app_or in Ha as [Ha|Ha].
      - apply in_map_iff in Ha as (d & [= <- <-] & Hd). split; [now left|now right].
      - destruct (IH Ha). split; now right. }
    apply sm_mult; [auto|]. apply sm_mult; auto. }
  assert (Near : (s = "log_ces" \/ s = "log_ces_general")%string -> locally x (fun y : R => shares all (beta y))).
  { intros E. specialize (Hg E). apply (loc_imp (fun y => Forall (fun g => 0 < beta y g) all)).
    - intros y Hy. rewrite Forall_forall in Hy. split; [intros f Hf; apply Rlt_le; auto|]. exists own. auto.
    - apply (loc_Forall all (fun g y => 0 < beta y g)). apply Forall_forall. intros g Hgin. apply sm_positive; auto. }
  assert (Hne : all <> []) by (intros ->; destruct Hown).
  repeat (destruct Hin as [<-|Hin]; [|]); [| | | | | |destruct Hin].
  - exists (fun y => linear_formula all (beta y) (state y)). split; [|apply loc_all; intros; constructor].
    unfold linear_formula. now apply sm_plus.
  - exists (fun y => translog_formula all (beta y) (state y)). split; [|apply loc_all; intros; constructor].
    unfold translog_formula. apply sm_plus; [|auto]. apply sm_plus; [|exact Int]. now apply sm_plus.
  - exists (fun y => squares_formula all (beta y) (state y)). split; [|apply loc_all; intros; constructor].
    unfold squares_formula. apply sm_plus; [|auto]. now apply sm_plus.
  - exists (fun y => log_ces_formula all (beta y) (state y)). split.
    + unfold log_ces_formula. apply sm_div; [|auto|auto]. apply sm_ln.
      * apply (sm_sum_of all (fun y f => beta y f * exp (beta y "phi"%string * state y f))). intros a Ha.
        apply sm_mult; [auto|]. apply sm_exp, sm_mult; auto.
      * apply sum_of_pos; [|exact Hne]. intros a Ha. apply Rmult_lt_0_compat; [auto|apply exp_pos].
    + refine (loc_imp _ _ x _ (Near _)); [|auto]. intros y Hy. now constructor.
  - exists (fun y => log_ces_general_formula all (beta y) (state y)). split.
    + unfold log_ces_general_formula. apply sm_mult; [auto|]. apply sm_ln.
      * apply (sm_sum_of all (fun y f => beta y f * exp (beta y ("sigma_" ++ f)%string * state y f))). intros a Ha.
        apply sm_mult; [auto|]. apply sm_exp, sm_mult; auto.
      * apply sum_of_pos; [|exact Hne]. intros a Ha. apply Rmult_lt_0_compat; [auto|apply exp_pos].
    + refine (loc_imp _ _ x _ (Near _)); [|auto]. intros y Hy. now constructor.
  - exists (fun y => state y own). split; [auto|apply loc_all; intros; constructor].
Qed.

(** ** One changed parameter *)

Section Model.
  Variables (md : model_dict) (p : processed) (n : nat) (df : frame R) (ids lv : list Z) (ar : arrays R)
    (params : list R) (ps : parsed R).
  Hypothesis H : likelihood_setting md p n df ids lv ar params ps.
  Hypothesis Hclean : clean_anchoring md.
  Variables (k : nat) (lb : label) (x : R).
  Hypothesis Hk : nth_error (params_index_of p) k = Some lb.
  Hypothesis Hx : nth_error params k = Some x.

  Let Hwf : wf_dicts md. Proof. apply H. Qed.
  Let Hp : process_model md = Ok p. Proof. apply H. Qed.
  Let Hn : has_n_periods md n. Proof. apply H. Qed.
  Let Hg : good_names md. Proof. apply H. Qed.
  Let Hu : NoDup (params_index_of p). Proof. exact (idx_NoDup md p Hwf Hg Hp). Qed.
  Let Hlen : length params = length (params_index_of p). Proof. apply H. Qed.
  Let Hkl : (k < length params)%nat. Proof. apply nth_error_Some. congruence. Qed.

  Definition values_at (y : R) (l : label) : R :=
    if label_eq_dec l lb then y else val_of 0 (params_index_of p) params l.
  Definition parsed_at (y : R) : parsed R :=
    match parse_for 0 1 ln p (put k y params) (length ids) with Ok q => q | Err _ => ps end.

  Lemma values_at_ok y : parameter_values (params_index_of p) (put k y params) (values_at y).
  Proof.
    split.
    - intros l Hl. unfold values_at. destruct (label_eq_dec l lb) as [->|N].
      + exists k. split; [exact Hk|]. rewrite put_nth_error by exact Hkl. now rewrite Nat.eqb_refl.
      + apply In_nth_error in Hl as [j Hj]. exists j. split; [exact Hj|]. rewrite put_nth_error by exact Hkl.
        destruct (Nat.eqb_spec j k) as [->|_]; [congruence|].
        pose proof (labelled_map (params_index_of p) (val_of 0 (params_index_of p) params) l (nth_error_In _ _ Hj)) as (j' & Ej & Ev).
        rewrite <- (val_of_map 0 (params_index_of p) params Hu Hlen) in Ev.
        assert (j' = j) as ->; [|exact Ev]. apply (proj1 (NoDup_nth_error _) Hu); [apply nth_error_Some; congruence|congruence].
    - intros l Hl. unfold values_at. destruct (label_eq_dec l lb) as [->|_]; [destruct Hl; eapply nth_error_In, Hk|].
      now apply val_of_absent.
  Qed.

  Lemma put_same : put k x params = params.
  Proof.
    apply SimulateFacts.nth_error_ext. intros j. rewrite put_nth_error by exact Hkl.
    destruct (Nat.eqb_spec j k) as [->|]; congruence.
  Qed.

  Lemma setting_at y : likelihood_setting md p n df ids lv ar (put k y params) (parsed_at y).
  Proof.
    destruct H as (A & B & C & D & E). split; [exact A|]. split; [exact B|]. split; [exact C|].
    assert (L : length (put k y params) = length (params_index_of p)) by now rewrite put_length.
    split; [exact L|].
    destruct (parse_for_needs R 0 1 ln md p n (length ids) params Hp Hn Hlen ps E) as [H2 Hm].
    destruct (C09_parsing_succeeds R 0 1 ln md p n (length ids) (put k y params) Hwf Hu Hp Hn L Hclean H2 Hm) as [q Hq].
    unfold parsed_at. now rewrite Hq.
  Qed.

  Lemma parsed_same : parsed_at x = ps.
  Proof. unfold parsed_at. rewrite put_same. assert (E : parse_for 0 1 ln p params (length ids) = Ok ps) by apply H. now rewrite E. Qed.

  Lemma sm_value l : smooth (fun y => values_at y l) x.
  Proof. unfold values_at. destruct (label_eq_dec l lb); [apply sm_id|apply sm_const]. Qed.

  Lemma values_same l : values_at x l = val_of 0 (params_index_of p) params l.
  Proof.
    pose proof (values_at_ok x) as V. rewrite put_same in V. now rewrite (parameter_values_fun _ _ _ Hu Hlen V).
  Qed.

  Definition nearby (y : R) : Prop := forall l, values_at x l <> 0 -> values_at y l <> 0.

  Lemma near : locally x nearby.
  Proof.
    destruct (Req_EM_T x 0) as [E|N].
    - apply loc_all. intros y l. unfold values_at. destruct (label_eq_dec l lb); [intros F; now destruct F|auto].
    - apply (loc_imp (fun y => y <> 0)); [|exact (sm_nonzero (fun y => y) x (sm_id x) N)].
      intros y Hy l. unfold values_at. destruct (label_eq_dec l lb); auto.
  Qed.

  Let inp y := inputs_of (parsed_at y) ar.

  Lemma scaling_entries t : (t < n)%nat ->
    exists sel : list ((string * string) + R),
      (forall s, In s sel -> match s with inl fo => In fo (outcomes_of md) | inr c => c = 1 end) /\
      length sel = length (latent_of md ++ observed_of md) /\
      forall y, in_scaling (inp y) t = arr1 (map (entry_of (fun fo => values_at y (CLoadings, t, fo_name fo, fst fo))) sel).
  Proof.
    intros Ht.
    destruct (mask_set_entries (map (is_anchored md) (latent_of md)) (outcomes_of md) (map (fun _ => 1) (latent_of md)))
      as (sel & Hs & E).
    exists (sel ++ map inr (repeat 1 (length (observed_of md)))). split; [|split].
    - intros s Hin. apply in_app_or in Hin as [Hin|Hin].
      + specialize (Hs s Hin). destruct s as [a|c]; [exact Hs|]. apply in_map_iff in Hs as (? & <- & _). reflexivity.
      + apply in_map_iff in Hin as (c & <- & Hc). exact (repeat_spec _ _ _ Hc).
    - rewrite !app_length, map_length, repeat_length. f_equal.
      pose proof (f_equal (@length R) (E (fun _ => 0))) as L. rewrite map_length in L. rewrite <- L.
      now rewrite mask_set_length, map_length.
    - intros y. unfold inp.
      rewrite (scaling_form md p n df ids lv ar _ _ _ (setting_at y) (values_at_ok y) t Hclean Ht).
      rewrite E, map_app, map_map. cbn [entry_of]. now rewrite map_id.
  Qed.

  Lemma sm_scaling t a : (t < n)%nat -> smooth (fun y => in_scaling (inp y) t a) x.
  Proof.
    intros Ht. destruct (scaling_entries t Ht) as (sel & _ & _ & E).
    apply (sm_ext (fun y => arr1 (map (fun s => entry_of (fun fo => values_at y (CLoadings, t, fo_name fo, fst fo)) s) sel) a)).
    - intros y. now rewrite E.
    - apply (sm_arr1_map (fun y s => entry_of (fun fo => values_at y (CLoadings, t, fo_name fo, fst fo)) s)).
      intros [fo|c] _; cbn [entry_of]; [exact (sm_value _)|apply sm_const].
  Qed.

  Lemma sm_constants t a : (t < n)%nat -> smooth (fun y => in_constants (inp y) t a) x.
  Proof.
    intros Ht.
    assert (exists sel : list ((string * string) + R), forall y, in_constants (inp y) t
              = arr1 (map (entry_of (fun fo => values_at y (CControls, t, fo_name fo, "constant"%string))) sel)) as (sel & E).
    { destruct (mask_set_entries (map (is_anchored md) (latent_of md)) (outcomes_of md) (map (fun _ => 0) (latent_of md)))
        as (sel & _ & E).
      exists ((if ignores_constant md then map inr (map (fun _ => 0) (latent_of md)) else sel) ++ map inr (repeat 0 (length (observed_of md)))).
      intros y. unfold inp.
      rewrite (constants_form md p n df ids lv ar _ _ _ (setting_at y) (values_at_ok y) t Hclean Ht).
      rewrite E, map_app, (map_map inr). cbn [entry_of]. rewrite map_id. f_equal. f_equal.
      destruct (ignores_constant md); [|reflexivity]. rewrite (map_map inr). cbn [entry_of]. now rewrite map_id. }
    apply (sm_ext (fun y => arr1 (map (fun s => entry_of (fun fo => values_at y (CControls, t, fo_name fo, "constant"%string)) s) sel) a)).
    - intros y. now rewrite E.
    - apply (sm_arr1_map (fun y s => entry_of (fun fo => values_at y (CControls, t, fo_name fo, "constant"%string)) s)).
      intros [fo|c] _; cbn [entry_of]; [exact (sm_value _)|apply sm_const].
  Qed.

  (** The condition on the parameters. *)
  Hypothesis Hint : interior md (combine (params_index_of p) params).

  Lemma in_params l : In l (params_index_of p) -> In (l, values_at x l) (combine (params_index_of p) params).
  Proof.
    intros Hl. destruct (proj1 (values_at_ok x) l Hl) as (j & Hj & Hv). rewrite put_same in Hv.
    revert Hj Hv. generalize (values_at x l). generalize params. generalize (params_index_of p). clear.
    intros idx. revert j. induction idx as [|a idx IH]; intros [|j] [|b v] r; cbn [nth_error combine]; try discriminate.
    - intros [= ->] [= ->]. now left.
    - intros A B. right. eapply IH; eassumption.
  Qed.

  Lemma scaling_nonzero t a : (t < n)%nat -> (a < length (latent_of md ++ observed_of md))%nat ->
    in_scaling (inp x) t a <> 0 /\ forall y, nearby y -> in_scaling (inp y) t a <> 0.
  Proof.
    intros Ht Ha. destruct (scaling_entries t Ht) as (sel & Hs & Hl & E).
    destruct (nth_error sel a) as [s|] eqn:Es; [|apply nth_error_None in Es; lia].
    assert (V : forall y, in_scaling (inp y) t a = entry_of (fun fo => values_at y (CLoadings, t, fo_name fo, fst fo)) s).
    { intros y. rewrite E. unfold arr1. now rewrite (nth_of_nth_error _ a _ 0 (map_nth_error _ _ _ Es)). }
    rewrite V. specialize (Hs s (nth_error_In _ _ Es)). destruct s as [[f o]|c]; cbn [entry_of fst] in *.
    - assert (N : values_at x (CLoadings, t, fo_name (f, o), f) <> 0).
      { destruct Hint as (_ & _ & _ & _ & HL & _). apply (HL t f o _ Hs). apply in_params.
        apply (In_params_index md p _ Hwf Hp). constructor.
        - right. split; [exists n; auto|]. exists o. split; [|reflexivity]. now apply anchored_outcomes.
        - apply (proj1 Hclean f o Hs). }
      split; [exact N|]. intros y Hy. rewrite V. cbn [entry_of]. now apply Hy.
    - subst c. split; [lra|]. intros y _. rewrite V. cbn [entry_of]. lra.
  Qed.

  (** *** Transition functions *)

  Variables (nan neg_inf : R) (custom : string -> dict R -> dict R -> list R -> result R).
  Hypothesis Hcustom : total_custom custom.
  Hypothesis Hdt : differentiable_transitions custom md.
  Let tfunc := model_tfunc nan neg_inf custom md (p_labels p).
  Let all := latent_of md ++ observed_of md.

  Lemma position_nth l : forall j f, NoDup l -> nth_error l j = Some f -> position f l = Some j.
  Proof.
    induction l as [|a l IH]; intros [|j] f ND Hj; try discriminate; cbn [position nth_error] in *.
    - injection Hj as ->. now rewrite String.eqb_refl.
    - inversion ND as [|? ? Na ND']; subst. destruct (String.eqb_spec f a) as [->|_].
      + exfalso. apply Na. eapply nth_error_In, Hj.
      + now rewrite (IH j f ND' Hj).
  Qed.

  Lemma dget_map {V W} (g : string -> V -> W) (d : dict V) f :
    dget (map (fun fv => (fst fv, g (fst fv) (snd fv))) d) f = option_map (g f) (dget d f).
  Proof.
    induction d as [|[a v] d IH]; [reflexivity|]. cbn [map dget fst snd]. destruct (String.eqb_spec f a) as [->|]; [reflexivity|exact IH].
  Qed.

  Lemma sm_custom t (v : R -> vec) j f fs fn names : (t + 1 < n)%nat ->
    nth_error (latent_of md) j = Some f -> In (f, fs) (md_factors md) -> fs_transition fs = TFun fn (Some names) ->
    (forall g, (g < length all)%nat -> smooth (fun y => v y g) x) ->
    smooth (fun y => tfunc (in_coeffs (inp y) t) (v y) j) x.
  Proof.
    intros Ht Hj Hin Et Hv.
    set (coeffs := fun y => map (fun name => values_at y (CTransition, t, f, name)) names).
    set (row := fun y => map (v y) (seq 0 (length all))).
    pose proof (Hdt f fs Hin) as Hd. rewrite Et in Hd.
    apply (sm_ext (fun y => match custom f (dict_of (combine names (coeffs y))) (factor_states all (row y)) (row y) with
                            | Ok r => r | Err _ => 0 end)).
    - intros y.
      pose proof (C57_individual_functions nan neg_inf custom Hcustom md p n (length ids) (put k y params) (parsed_at y) ar Hwf Hg Hp Hn
        ltac:(apply (setting_at y)) ltac:(apply (setting_at y)) t (v y) j f Ht Hj) as E.
      unfold individual_function, dget_err in E. rewrite (In_dget (md_factors md) f fs) in E by (try apply Hwf; assumption).
      cbn [rbind] in E. rewrite Et in E. cbn [next_state] in E. unfold dget_err in E.
      assert (Hc : dget (in_coeffs (inputs_of (parsed_at y) ar) t) f = Some (coeffs y)).
      { rewrite (coeffs_form md p n df ids lv ar _ _ _ (setting_at y) (values_at_ok y) t Ht).
        rewrite (dget_map (fun f0 fs0 => map (fun name => values_at y (CTransition, t, f0, name))
           (transition_parameters (latent_of md ++ observed_of md) (fs_transition fs0))) (md_factors md) f).
        rewrite (In_dget (md_factors md) f fs) by (try apply Hwf; assumption). cbn [option_map]. now rewrite Et. }
      rewrite Hc in E. cbn [rbind] in E. rewrite (all_eq md p Hp) in E. fold all in E.
      unfold row. rewrite E. reflexivity.
    - apply Hd.
      + intros name Hname. exists (fun y => values_at y (CTransition, t, f, name)). split; [|exact (sm_value _)].
        intros y. assert (Hnd : NoDup names) by (eapply Hg; eassumption). unfold dict_of, coeffs.
        assert (Hnd' : NoDup (dkeys (combine names (map (fun name => values_at y (CTransition, t, f, name)) names)))).
        { unfold dkeys. rewrite map_fst_combine; [exact Hnd|now rewrite map_length]. }
        rewrite dget_rev by exact Hnd'. apply In_dget; [exact Hnd'|]. clear -Hname.
        induction names as [|a names IH]; [destruct Hname|]. simpl. destruct Hname as [->|Hname]; [now left|right; auto].
      + intros name Hname. apply In_nth_error in Hname as [g Hgn]. exists (fun y => v y g). split.
        * intros y. unfold row. exact (env_get md p params Hg Hlen (v y) name g Hgn).
        * apply Hv. unfold all. apply nth_error_Some. congruence.
      + intros g Hgl. exists (fun y => v y g). split; [|now apply Hv]. intros y. unfold row.
        apply map_nth_error. rewrite (nth_error_nth' _ 0%nat) by now rewrite seq_length. now rewrite seq_nth.
  Qed.

  Lemma sm_transition t (v : R -> vec) j : (t + 1 < n)%nat -> (j < length (latent_of md))%nat ->
    (forall g, (g < length all)%nat -> smooth (fun y => v y g) x) ->
    smooth (fun y => tfunc (in_coeffs (inp y) t) (v y) j) x.
  Proof.
    intros Ht Hj Hv. pose proof (factor_nth md j Hj) as Hf. set (f := factor md j) in *.
    assert (exists fs, In (f, fs) (md_factors md)) as [fs Hin].
    { pose proof (nth_error_In _ _ Hf) as Hi. unfold latent_of in Hi. apply in_map_iff in Hi as ([f' fs] & E' & Hin').
      exists fs. cbn [fst] in E'. now rewrite <- E'. }
    destruct (spec_valid md p Hwf Hp f fs Hin) as [(s & Es & Hs)|(fn & names & Es)]; [|now apply (sm_custom t v j f fs (Some fn) names)].
    pose proof (Hdt f fs Hin) as Hd. rewrite Es in Hd.
    assert (Hnda : NoDup all) by apply Hg.
    set (state := fun y g => match position g all with Some i => v y i | None => 0 end).
    set (beta := fun y name => values_at y (CTransition, t, f, name)).
    assert (Hinp : forall name, In name (transition_parameters all (fs_transition fs)) -> In (CTransition, t, f, name) (params_index_of p)).
    { intros name Hname. apply (In_params_index md p _ Hwf Hp). now apply (par_transition md t n f fs). }
    destruct Hint as (_ & _ & _ & _ & _ & HS & HP).
    destruct (sm_documented all f s x beta state) as (F & HF & HD).
    - unfold all. apply in_or_app. left. eapply nth_error_In, Hf.
    - intros name. exact (sm_value _).
    - intros g Hgin. apply In_nth_error in Hgin as [i Hi]. unfold state. rewrite (position_nth all i g Hnda Hi).
      apply Hv. apply nth_error_Some. congruence.
    - intros E g Hgin. apply (HS t f fs g _ Hin); [destruct E as [-> | ->]; auto|exact Hgin|].
      apply in_params, Hinp. rewrite Es. destruct E as [-> | ->]; cbn [transition_parameters]; apply in_or_app; now left.
    - intros E. subst s. apply (HP t f fs _ Hin Es). apply in_params, Hinp. rewrite Es. cbn [transition_parameters].
      apply in_or_app. right. now left.
    - cbn in Hs. cbn. intuition.
    - apply (sm_ext_loc F); [|exact HF]. apply (loc_imp _ _ x) with (2 := HD). intros y Hy. symmetry.
      destruct (C57_model_transition nan neg_inf custom Hcustom md p n (length ids) (put k y params) (parsed_at y) ar Hwf Hg Hp Hn
        ltac:(apply (setting_at y)) ltac:(apply (setting_at y)) t j f fs (v y) (beta y) (state y) Ht Hf Hin) as [A _].
      + intros name Hname. apply (proj1 (values_at_ok y)). now apply Hinp.
      + intros i g Hi. unfold state. now rewrite (position_nth all i g Hnda Hi).
      + exact (A s (F y) Es Hy).
  Qed.

  (** *** All events *)

  Lemma nondegenerate_at y : nearby y ->
    nondegenerate md n (params_index_of p) (values_at y) (arr2 (ps_scaling (parsed_at y))).
  Proof.
    intros Hy. destruct Hint as (HM & HC & _ & HSh & _). split; [|split].
    - intros t v Hin. apply Hy. apply (HM t v). now apply in_params.
    - intros e f Hin. apply Hy. apply (HC e f). now apply in_params.
    - intros t j f fs Ht Hj Hin.
      assert (Hi : In (CShockSds, t, f, "-"%string) (params_index_of p)).
      { apply (In_params_index md p _ Hwf Hp). apply (par_shock_sd md t f n); [exact Hn|exact Ht|eapply nth_error_In, Hj]. }
      assert (Hjl : (j < length (latent_of md ++ observed_of md))%nat).
      { rewrite app_length. assert (j < length (latent_of md))%nat by (apply nth_error_Some; congruence). lia. }
      destruct (HSh t f fs _ Hin (in_params _ Hi)) as [N|N]; [left; now apply Hy|right].
      split; [exact N|]. split; [exact (proj2 (scaling_nonzero t j ltac:(lia) Hjl) y Hy)|exact (proj2 (scaling_nonzero (t + 1) j ltac:(lia) Hjl) y Hy)].
  Qed.

  Let nl := length (latent_of md).
  Let no := length (observed_of md).
  Let nc := length ("constant"%string :: controls_of md).

  Lemma smooth_events : Forall (smooth_event tfunc nl no nc x inp) (code_events 0 (purposes (p_update p))).
  Proof.
    apply Forall_forall. intros e He. split.
    - apply (loc_imp nearby); [|exact near]. intros y Hy.
      pose proof (all_regular nan neg_inf custom Hcustom md p n df ids lv ar _ _ _ (setting_at y) (values_at_ok y) (nondegenerate_at y Hy)) as A.
      rewrite Forall_forall in A. exact (A e He).
    - pose proof (code_events_in _ _ _ He) as Hc.
      assert (U : forall i, (i < length (purposes (p_update p)))%nat ->
        (forall a, (a < nl)%nat -> smooth (fun y => in_loadings (inp y) i a) x) /\
        (forall c, (c < nc)%nat -> smooth (fun y => in_control_params (inp y) i c) x) /\
        smooth (fun y => in_sd (inp y) i) x).
      { intros i Hi. assert (Hi' : (i < length (equations md n))%nat).
        { rewrite (equations_update md p n Hwf Hp Hn), map_length. unfold purposes in Hi. now rewrite map_length in Hi. }
        destruct (nth_error (equations md n) i) as [[t v]|] eqn:Ei; [|apply nth_error_None in Ei; lia].
        split; [|split].
        - intros a Ha. apply (sm_ext (fun y => arr1 (map (fun f => values_at y (CLoadings, t, v, f)) (latent_of md)) a)).
          + intros y. unfold inp. now rewrite (loading_form md p n df ids lv ar _ _ _ (setting_at y) (values_at_ok y) i t v Ei).
          + apply (sm_arr1_map (fun y f => values_at y (CLoadings, t, v, f))). intros f _. exact (sm_value _).
        - intros c Hc'. apply (sm_ext (fun y => arr1 (map (fun c => values_at y (CControls, t, v, c)) ("constant"%string :: controls_of md)) c)).
          + intros y. unfold inp. now rewrite (control_form md p n df ids lv ar _ _ _ (setting_at y) (values_at_ok y) i t v Ei).
          + apply (sm_arr1_map (fun y c => values_at y (CControls, t, v, c))). intros f _. exact (sm_value _).
        - apply (sm_ext (fun y => values_at y (CMeasSds, t, v, "-"%string))); [|exact (sm_value _)].
          intros y. unfold inp. now rewrite (sd_form md p n df ids lv ar _ _ _ (setting_at y) (values_at_ok y) i t v Ei). }
      destruct e as [i t|i t|t]; [apply U; lia|apply U; lia|].
      destruct Hc as (tb & Hin & E). unfold purposes in Hin. apply in_map_iff in Hin as (r & <- & Hr). cbn [fst] in E.
      pose proof (update_periods md p n df ids lv ar params ps H r Hr) as Hlt.
      assert (Ht : (t + 1 < n)%nat) by lia. split; [|split; [|split]].
      + intros f Hf. apply (sm_ext (fun y => arr1 (map (fun f => values_at y (CShockSds, t, f, "-"%string)) (latent_of md)) f)).
        * intros y. unfold inp. now rewrite (shock_form md p n df ids lv ar _ _ _ (setting_at y) (values_at_ok y) t Ht).
        * apply (sm_arr1_map (fun y f => values_at y (CShockSds, t, f, "-"%string))). intros g _. exact (sm_value _).
      + intros f Hf. split; [apply sm_scaling; lia|apply sm_constants; lia].
      + intros f Hf. split; [apply sm_scaling; lia|]. split; [apply sm_constants; lia|].
        apply (proj1 (scaling_nonzero (t + 1) f ltac:(lia) ltac:(rewrite app_length; unfold nl in Hf; lia))).
      + intros v Hv f Hf. apply sm_transition; [exact Ht|exact Hf|]. unfold all. rewrite app_length. exact Hv.
  Qed.

  Lemma smooth_initial i : (i < length ids)%nat ->
    smooth_belief (n_mixtures_of md) nl i x (fun y => initial_belief (parsed_at y)).
  Proof.
    intros Hi m Hm.
    assert (Hrep : forall {A} (l : list A) d, nth i (repeat l (length ids)) d = l).
    { intros A l d. rewrite (nth_of_nth_error _ i l d); [reflexivity|].
      rewrite (nth_error_nth' _ l) by now rewrite repeat_length. now rewrite nth_repeat. }
    assert (Hrange : nth_error (range (n_mixtures_of md)) m = Some m) by now apply nth_error_range.
    split; [|split; [|split]].
    - intros a Ha. apply (sm_ext (fun y => arr1 (map (fun f => values_at y (CInitStates, O, mixture_name m, f)) (latent_of md)) a)).
      + intros y. rewrite (initial_form md p n df ids lv ar _ _ _ (setting_at y) (values_at_ok y)). cbn [be_states].
        unfold arr3, arr2. rewrite Hrep. now rewrite (nth_of_nth_error _ m _ [] (map_nth_error _ _ _ Hrange)).
      + apply (sm_arr1_map (fun y f => values_at y (CInitStates, O, mixture_name m, f))). intros f _. exact (sm_value _).
    - intros a c Ha Hc. unfold cov. apply sm_rsum. intros d Hd.
      assert (S : forall b, (b < nl)%nat -> smooth (fun y => be_chols (initial_belief (parsed_at y)) i m d b) x).
      { intros b Hb. apply (sm_ext (fun y => if (d <=? b)%nat then values_at y (CInitChol, O, mixture_name m, cov_name (factor md b) (factor md d)) else 0)).
        - intros y. symmetry. exact (initial_entry md p n df ids lv ar _ _ _ (setting_at y) (values_at_ok y) i m d b Hi Hm Hd Hb).
        - destruct (d <=? b)%nat; [exact (sm_value _)|apply sm_const]. }
      apply sm_mult; now apply S.
    - apply (sm_ext (fun y => ln (values_at y (CMixWeights, O, mixture_name m, "-"%string)))).
      + intros y. rewrite (initial_form md p n df ids lv ar _ _ _ (setting_at y) (values_at_ok y)). cbn [be_logw].
        unfold arr2, arr1. rewrite Hrep. now rewrite (nth_of_nth_error _ m _ 0 (map_nth_error _ _ _ Hrange)).
      + apply sm_ln; [exact (sm_value _)|]. destruct Hint as (_ & _ & HW & _). apply (HW m). apply in_params.
        apply (In_params_index md p _ Hwf Hp). now apply (par_mixture_weight md m).
    - apply (loc_imp nearby); [|exact near]. intros y Hy. split.
      + intros a b Ha Hb Hlt.
        rewrite (initial_entry md p n df ids lv ar _ _ _ (setting_at y) (values_at_ok y) i m a b Hi Hm Ha Hb).
        now rewrite (proj2 (Nat.leb_gt a b)) by exact Hlt.
      + exact (initial_nonsingular md p n df ids lv ar _ _ _ (setting_at y) (values_at_ok y) (nondegenerate_at y Hy) i m Hi Hm).
  Qed.

  (** *** The likelihood *)

  Variable qr : qr_function.
  Hypothesis Hqr : correct_qr qr.
  Hypothesis Hkappa : 0 <= Q2R (o_sigma_points_scale (p_options p)).
  Variable out : output.
  Hypothesis Hout : log_likelihood qr nan tfunc p ar false params = Ok out.

  Definition output_at (y : R) : output :=
    match log_likelihood qr nan tfunc p ar false (put k y params) with Ok o => o | Err _ => out end.

  Theorem likelihood_smooth :
    (forall y, log_likelihood qr nan tfunc p ar false (put k y params) = Ok (output_at y)) /\
    (forall i, (i < length ids)%nat -> smooth (fun y => out_contributions (output_at y) i) x) /\
    (forall y, out_value (output_at y) = rsum (length ids) (out_contributions (output_at y))).
  Proof.
    destruct (shapes_fit (length ids) (n_mixtures (p_dims p)) (n_observed (p_dims p))) eqn:Hfit.
    - set (evs := code_events 0 (purposes (p_update p))).
      set (recs := fun y => match run_model qr nan tfunc p (length ids) (parsed_at y) ar evs with Ok r => r | Err _ => [] end).
      assert (E : forall y, run_model qr nan tfunc p (length ids) (parsed_at y) ar evs = Ok (recs y) /\
                log_likelihood qr nan tfunc p ar false (put k y params) = Ok (output_at y) /\
                reports (p_options p) (length ids) (recs y) (initial_belief (parsed_at y)) false (output_at y)).
      { intros y.
        destruct (likelihood_events qr nan tfunc md p n df ids lv ar _ _ false (setting_at y) Hfit) as (rs & o & Er & _ & Eo & Hr).
        unfold recs, output_at. unfold evs in *. rewrite Er, Eo. auto. }
      split; [intros y; apply E|]. split.
      + intros i Hi. destruct (p_dims_eq md p Hp) as (Dl & Do & Dc & Dm & _).
        assert (Hnm : (1 <= n_mixtures (p_dims p))%nat) by (apply (parse_mixtures p params (length ids) ps); apply H).
        pose proof (model_tfunc_local nan neg_inf custom md p Hp) as Hloc.
        assert (Er : forall y, run qr nan tfunc (length ids) (n_mixtures_of md) nl no nc
                  (Q2R (o_sigma_points_scale (p_options p))) (inp y) evs (initial_belief (parsed_at y)) = Ok (recs y)).
        { intros y. destruct (E y) as (Er & _). unfold run_model in Er. rewrite Dl, Do, Dc, Dm in Er. exact Er. }
        rewrite Dl, Do in Hloc. rewrite Dm in Hnm.
        destruct (run_smooth qr Hqr nan tfunc (length ids) (n_mixtures_of md) nl no nc
                    (Q2R (o_sigma_points_scale (p_options p))) i x Hnm Hkappa) with (inp := inp)
          (values := in_values (inputs_of ps ar)) (controls := in_controls (inputs_of ps ar)) (observed := in_observed (inputs_of ps ar))
          (evs := evs) (b := fun y => initial_belief (parsed_at y)) (recs := recs) as (l & El & Fl).
        * assert (0 < INR nl).
          { apply lt_0_INR. destruct Hn as [(f & fs & Hin & _) _]. unfold nl, latent_of. rewrite map_length.
            destruct (md_factors md); [destruct Hin|cbn; lia]. }
          lra.
        * rewrite Dm, Do in Hfit. apply shapes_fit_spec in Hfit as [F|F]; [lia|exact F].
        * exact Hloc.
        * intros y. auto.
        * exact smooth_events.
        * exact (smooth_initial i Hi).
        * exact Er.
        * apply (sm_ext (fun y => contribution_of (p_options p) (map (fun r => r y) l) i)).
          -- intros y. rewrite <- El. symmetry. destruct (E y) as (_ & _ & _ & C & _). apply C.
          -- now apply contribution_smooth.
      + intros y. destruct (E y) as (_ & _ & V & C & _). rewrite V. apply rsum_ext. intros i _. symmetry. apply C.
    - destruct (p_update p) as [|r u] eqn:Eu.
      + assert (E : forall y, exists o, log_likelihood qr nan tfunc p ar false (put k y params) = Ok o /\
                   (forall i, out_contributions o i = 0) /\ out_value o = rsum (length ids) (out_contributions o)).
        { intros y. unfold log_likelihood. destruct (ar_shapes md p n df ids lv ar _ _ (setting_at y)) as (_ & _ & ->).
          assert (Hps : parse_for 0 1 ln p (put k y params) (length ids) = Ok (parsed_at y)) by apply (setting_at y). rewrite Hps. cbn [rbind].
          rewrite (loop_args_ok md p n df ids lv ar _ _ (setting_at y)), Eu. cbn [length seq map rbind scan snd].
          eexists. split; [reflexivity|]. cbn [out_contributions out_value rsum]. split; [reflexivity|].
          symmetry. apply rsum_zero. reflexivity. }
        assert (E' : forall y, log_likelihood qr nan tfunc p ar false (put k y params) = Ok (output_at y) /\
                   (forall i, out_contributions (output_at y) i = 0) /\ out_value (output_at y) = rsum (length ids) (out_contributions (output_at y))).
        { intros y. destruct (E y) as (o & Eo & A). unfold output_at. rewrite Eo. auto. }
        split; [intros y; apply E'|]. split; [|intros y; apply E'].
        intros i _. apply (sm_ext (fun _ => 0)); [|apply sm_const]. intros y. symmetry. apply E'.
      + exfalso. rewrite (likelihood_misfits qr nan tfunc md p n df ids lv ar params ps false H Hfit) in Hout by (rewrite Eu; discriminate).
        discriminate Hout.
  Qed.
End Model.
