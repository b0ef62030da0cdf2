(** Removing measurements from a model is the same as never observing them (C94). *)
Require Import Reals Qreals Lra String Arith ZArith Bool List Lia FunctionalExtensionality.
From Verif Require Import PyBase ListFacts ModelSpec ProcessModel CheckModel SpecModel ProcessModelFacts
  SpecParse SpecIndex IndexFacts SpecFacts ParamsIndex ParseParams ParseFacts AnchorFacts PropsParse ProcessData SpecData DataFacts PropsData
  RSum Kalman PropsKalman Likelihood SpecLikelihood ScheduleFacts LikelihoodRun PropsFiltered SpecModelDensity
  LikelihoodFacts ExampleModels PropsSpec PropsLikelihood QRWitness PropsNumerics Renormalization PropsRenormalization TransitionFunctions PropsTransition
  Utilities SpecUtilities UtilitiesFacts ModelInputs Runs Related PropsPrefix.
Import ListNotations.
Open Scope R_scope.

(** ** Runs *)

(** The numbers of the equations among the events. *)
Fixpoint equations_of_events (evs : list event) : list nat :=
  match evs with
  | [] => []
  | Measure k _ :: evs' => k :: equations_of_events evs'
  | Anchor k _ :: evs' => k :: equations_of_events evs'
  | Transition _ :: evs' => equations_of_events evs'
  end.

Lemma equations_of_code l : forall k, equations_of_events (code_events k l) = seq k (length l).
Proof.
  induction l as [|tb l IH]; intros k; [reflexivity|]. cbn [code_events length seq].
  assert (E : forall x, equations_of_events (ev k tb :: x) = k :: equations_of_events x).
  { intros x. unfold ev. now destruct (snd tb). }
  rewrite E. f_equal. destruct l as [|tb' l]; [apply IH|]. destruct (fst tb' =? S (fst tb))%nat; cbn [app equations_of_events]; apply IH.
Qed.

Section Thinned.
  Variable qr : qr_function.
  Variable nan : R.
  Variables tfunc tfunc' : dict (list R) -> vec -> vec.
  Variables (n_obs nm n no nc : nat) (kappa : R) (inp inp' : inputs).
  Variable kept_eq : nat -> bool.

  Definition event_kept (e : event) : bool :=
    match e with Measure k _ => kept_eq k | Anchor k _ => kept_eq k | Transition _ => true end.

  (** The second list of events lacks some equations that are never observed. *)
  Inductive thinned : list event -> list event -> Prop :=
  | th_nil : thinned [] []
  | th_keep e e' evs evs' : event_kept e = true -> event_agrees tfunc tfunc' inp inp' e e' -> thinned evs evs' ->
      thinned (e :: evs) (e' :: evs')
  | th_drop k t evs evs' : kept_eq k = false -> (forall i, in_values inp k i = None) -> thinned evs evs' ->
      thinned (Measure k t :: evs) evs'.

  Lemma thinned_app a a' b b' : thinned a a' -> thinned b b' -> thinned (a ++ b) (a' ++ b').
  Proof. induction 1; intros Hb; cbn [app]; [exact Hb|constructor; auto|constructor; auto]. Qed.

  Lemma update_missing k t b : (forall i, in_values inp k i = None) ->
    fst (update_event qr nan nm n nc inp false k t b) = b /\
    re_contribution (snd (update_event qr nan nm n nc inp false k t b)) = fun _ => 0.
  Proof.
    intros Hm. unfold update_event. cbn [fst snd re_contribution].
    assert (G : forall i, let r := kalman_update qr nan nm n nc (be_states b) (be_chols b) (in_loadings inp k)
      (in_control_params inp k) (in_sd inp k) (in_values inp k) (in_controls inp t) (be_logw b) in
      up_states r i = be_states b i /\ up_chols r i = be_chols b i /\ up_logw r i = be_logw b i /\ up_loglikes r i = 0).
    { intros i. destruct (C31_missing_ignored qr nan nm n nc (be_states b) (be_chols b) (in_loadings inp k)
        (in_control_params inp k) (in_sd inp k) (in_values inp k) (in_controls inp t) (be_logw b) i (Hm i)) as (A & B & C & D & _).
      cbv zeta. auto. }
    cbv zeta in G. split.
    - destruct b as [s c w]. cbn [be_states be_chols be_logw] in *. f_equal; apply functional_extensionality; intros i; apply G.
    - apply functional_extensionality. intros i. apply G.
  Qed.

  Lemma run_thinned evs evs' : thinned evs evs' -> forall b recs,
    run qr nan tfunc n_obs nm n no nc kappa inp evs b = Ok recs ->
    run qr nan tfunc' n_obs nm n no nc kappa inp' evs' b
      = Ok (map snd (filter (fun kr => kept_eq (fst kr)) (combine (equations_of_events evs) recs))) /\
    Forall (fun kr => kept_eq (fst kr) = false -> re_contribution (snd kr) = fun _ => 0) (combine (equations_of_events evs) recs).
  Proof.
    induction 1 as [|e e' evs evs' Hk He _ IH|k t evs evs' Hk Hm _ IH]; intros b recs E.
    - injection E as <-. split; [reflexivity|constructor].
    - destruct He as [k k' t He|k k' t He|t He]; cbn [run event_kept equations_of_events] in *.
      + apply rbind_ok in E as (x & Ex & E). injection E as <-.
        rewrite <- (update_agrees qr nan nm n nc inp inp' false k k' t b He).
        destruct (IH _ _ Ex) as [E2 F]. cbn [combine filter fst map snd]. rewrite Hk, E2. cbn [rbind map snd]. split; [reflexivity|].
        constructor; [intros C; cbn [fst] in C; congruence|exact F].
      + apply rbind_ok in E as (x & Ex & E). injection E as <-.
        rewrite <- (update_agrees qr nan nm n nc inp inp' true k k' t b He).
        destruct (IH _ _ Ex) as [E2 F]. cbn [combine filter fst map snd]. rewrite Hk, E2. cbn [rbind map snd]. split; [reflexivity|].
        constructor; [intros C; cbn [fst] in C; congruence|exact F].
      + apply rbind_ok in E as (x & Ex & E).
        rewrite <- (transition_event_agrees qr nan tfunc tfunc' n_obs nm n no kappa inp inp' t b He), Ex. cbn [rbind]. now apply IH.
    - cbn [run equations_of_events] in *. apply rbind_ok in E as (x & Ex & E). injection E as <-.
      destruct (update_missing k t b Hm) as [A B]. rewrite A in Ex. destruct (IH _ _ Ex) as [E2 F].
      cbn [combine filter fst]. rewrite Hk. split; [exact E2|]. constructor; [intros _; exact B|exact F].
  Qed.
End Thinned.

(** ** Equations *)

Definition is_kept (ms : names) (e : nat * string) : bool := negb (smem (snd e) (as_list ms)).

Lemma is_kept_spec ms t v : is_kept ms (t, v) = true <-> ~ named ms v.
Proof. apply not_named_smem. Qed.

Lemma filter_flat_map {A B} (q : B -> bool) (g : A -> list B) l : filter q (flat_map g l) = flat_map (fun x => filter q (g x)) l.
Proof. induction l as [|x l IH]; [reflexivity|]. cbn [flat_map]. now rewrite filter_app, IH. Qed.

Lemma filter_true {A} (q : A -> bool) l : (forall x, In x l -> q x = true) -> filter q l = l.
Proof.
  induction l as [|x l IH]; intros Hq; [reflexivity|]. cbn [filter]. rewrite (Hq x (or_introl eq_refl)). f_equal.
  apply IH. intros y Hy. apply Hq. now right.
Qed.

Lemma removed_equations ms md n :
  (forall fo, In fo (outcomes_of md) -> ~ named ms (copy_name fo)) ->
  equations (map_factors (reduced_factor ms) md) n = filter (is_kept ms) (equations md n).
Proof.
  intros Hc. unfold equations. rewrite first_appearances_filter. f_equal.
  unfold written_equations. rewrite filter_flat_map. apply flat_map_ext_in. intros t _.
  rewrite filter_map_comm. f_equal. rewrite filter_app. f_equal.
  - cbn [md_factors map_factors]. rewrite filter_flat_map, !flat_map_concat_map, map_map. f_equal. apply map_ext.
    intros [f fs]. cbn [snd fs_measurements reduced_factor]. unfold remove_from_list.
    change (@nil string) with (filter (fun s => negb (smem s (as_list ms))) []) at 1. rewrite map_nth. reflexivity.
  - symmetry. rewrite filter_true; [reflexivity|]. intros v Hv. apply (is_kept_spec ms t v).
    unfold outcomes_of in Hc. destruct (md_anchoring md) as [a|]; [|destruct Hv].
    destruct (as_outcomes a) as [outs|]; [|destruct Hv]. apply in_map_iff in Hv as (fo & <- & Hfo). exact (Hc fo Hfo).
Qed.

(** ** The events *)

Definition event_at (md : model_dict) (t : nat) (ke : nat * (nat * string)) : event :=
  if is_anchoring_equation md (snd (snd ke)) then Anchor (fst ke) t else Measure (fst ke) t.

Section Thin.
  Variables (tfunc : dict (list R) -> vec -> vec) (inp inp' : inputs) (md md' : model_dict) (n : nat) (keep : nat * string -> bool).
  Let eqs := equations md n.
  Hypothesis Heqs' : equations md' n = filter keep eqs.
  Hypothesis Hanch : forall v, is_anchoring_equation md' v = is_anchoring_equation md v.
  Hypothesis Hagree : forall j j' t v, nth_error eqs j = Some (t, v) -> nth_error (equations md' n) j' = Some (t, v) ->
    equation_agrees inp inp' j j' t.
  Hypothesis Hmissing : forall j t v, nth_error eqs j = Some (t, v) -> keep (t, v) = false ->
    is_anchoring_equation md v = false /\ forall i, in_values inp j i = None.
  Hypothesis Htrans : forall t, (S t < n)%nat -> transition_agrees tfunc tfunc inp inp' t.

  Definition kept_number (k : nat) : bool := match nth_error eqs k with Some e => keep e | None => true end.

  Lemma thin_period t : thinned tfunc tfunc inp inp' kept_number (period_events md n t) (period_events md' n t).
  Proof.
    unfold period_events. fold eqs. rewrite Heqs'. unfold enumerate.
    assert (G : forall pre l k k', eqs = pre ++ l -> k = length pre -> k' = length (filter keep pre) ->
      thinned tfunc tfunc inp inp' kept_number
        (map (event_at md t) (filter (fun ke => (fst (snd ke) =? t)%nat) (combine (seq k (length l)) l)))
        (map (event_at md' t) (filter (fun ke => (fst (snd ke) =? t)%nat) (combine (seq k' (length (filter keep l))) (filter keep l))))).
    { intros pre l. revert pre. induction l as [|[s v] l IH]; intros pre k k' E Ek Ek'; [constructor|].
      assert (Hj : nth_error eqs k = Some (s, v)).
      { rewrite E, nth_error_app2 by lia. now rewrite Ek, Nat.sub_diag. }
      assert (Hn : kept_number k = keep (s, v)) by (unfold kept_number; now rewrite Hj).
      assert (E2 : eqs = (pre ++ [(s, v)]) ++ l) by (rewrite <- app_assoc; exact E).
      cbn [filter length seq combine]. destruct (keep (s, v)) eqn:K; cbn [length seq combine filter fst snd].
      - assert (Hj' : nth_error (equations md' n) k' = Some (s, v)).
        { rewrite Heqs', E, filter_app, nth_error_app2 by lia. rewrite Ek', Nat.sub_diag. cbn [filter]. now rewrite K. }
        specialize (IH (pre ++ [(s, v)]) (S k) (S k') E2).
        rewrite app_length, filter_app, app_length in IH. cbn [filter length] in IH. rewrite K in IH. cbn [length] in IH.
        specialize (IH ltac:(lia) ltac:(lia)). destruct (s =? t)%nat eqn:Es; [|exact IH]. cbn [map].
        apply Nat.eqb_eq in Es as ->. unfold event_at at 1 3. cbn [fst snd]. rewrite Hanch.
        destruct (is_anchoring_equation md v); (apply th_keep; [exact Hn|constructor; now apply (Hagree k k' t v)|exact IH]).
      - specialize (IH (pre ++ [(s, v)]) (S k) k' E2).
        rewrite app_length, filter_app, app_length in IH. cbn [filter length] in IH. rewrite K in IH. cbn [length] in IH.
        specialize (IH ltac:(lia) ltac:(lia)). destruct (s =? t)%nat eqn:Es; [|exact IH]. cbn [map].
        destruct (Hmissing k s v Hj K) as [Ha Hm]. unfold event_at at 1. cbn [fst snd]. rewrite Ha. now apply th_drop. }
    exact (G [] eqs O O eq_refl eq_refl eq_refl).
  Qed.

  Lemma thin_schedule : thinned tfunc tfunc inp inp' kept_number (schedule md n) (schedule md' n).
  Proof.
    unfold schedule. assert (G : forall l, (forall t, In t l -> (t < n)%nat) ->
      thinned tfunc tfunc inp inp' kept_number
        (flat_map (fun t => period_events md n t ++ (if (t + 1 <? n)%nat then [Transition t] else [])) l)
        (flat_map (fun t => period_events md' n t ++ (if (t + 1 <? n)%nat then [Transition t] else [])) l)).
    { induction l as [|t l IH]; intros Hl; [constructor|]. cbn [flat_map]. apply thinned_app.
      - apply thinned_app; [apply thin_period|]. destruct (Nat.ltb_spec (t + 1) n) as [L|_]; [|constructor].
        apply th_keep; [reflexivity| |constructor]. constructor. apply Htrans. lia.
      - apply IH. intros s Hs. apply Hl. now right. }
    apply G. intros t Ht. apply in_seq in Ht. lia.
  Qed.
End Thin.

(** ** Records *)

Lemma NoDup_first_appearances {A} (d : forall x y : A, {x = y} + {x <> y}) l : NoDup (first_appearances d l).
Proof.
  induction l as [|x l IH]; [constructor|]. cbn [first_appearances]. constructor.
  - intros Hin. apply filter_In in Hin as [_ Hin]. destruct (d x x); [discriminate|congruence].
  - now apply NoDup_filter.
Qed.

Lemma select_nth {A B} (keep : A -> bool) (q : nat -> bool) (eqs : list A) : forall (recs : list B) k,
  length eqs = length recs -> (forall i e, nth_error eqs i = Some e -> q (k + i)%nat = keep e) ->
  forall j' e, nth_error (filter keep eqs) j' = Some e -> exists j, nth_error eqs j = Some e /\
    nth_error (map snd (filter (fun kr => q (fst kr)) (combine (seq k (length eqs)) recs))) j' = nth_error recs j.
Proof.
  induction eqs as [|x eqs IH]; intros [|r recs] k Hl Hq j' e Hj; try discriminate; [destruct j'; discriminate|].
  assert (Hq0 : q k = keep x) by (specialize (Hq O x eq_refl); now rewrite Nat.add_0_r in Hq).
  assert (HqS : forall i e, nth_error eqs i = Some e -> q (S k + i)%nat = keep e).
  { intros i y Hi. rewrite Nat.add_succ_comm. now apply Hq. }
  cbn [length] in Hl. injection Hl as Hl. cbn [length seq combine filter fst]. rewrite Hq0. cbn [filter] in Hj.
  destruct (keep x).
  - destruct j' as [|j'].
    + injection Hj as <-. exists O. split; reflexivity.
    + destruct (IH recs (S k) Hl HqS j' e Hj) as (j & A1 & A2). exists (S j). split; assumption.
  - destruct (IH recs (S k) Hl HqS j' e Hj) as (j & A1 & A2). exists (S j). split; assumption.
Qed.

Lemma select_sum {B} (g : B -> R) (z : R) (q : nat -> bool) (recs : list B) : forall k,
  Forall (fun kr => q (fst kr) = false -> g (snd kr) = z) (combine (seq k (length recs)) recs) ->
  let sel := map snd (filter (fun kr => q (fst kr)) (combine (seq k (length recs)) recs)) in
  sum_list (map g recs) = sum_list (map g sel) + INR (length recs - length sel) * z /\ (length sel <= length recs)%nat.
Proof.
  induction recs as [|r recs IH]; intros k HF; cbn zeta.
  - cbn. split; [ring|lia].
  - cbn [length seq combine] in HF |- *. inversion HF as [|? ? Hr HF']; subst. destruct (IH (S k) HF') as [IH1 IH2].
    cbn [filter fst snd] in *. destruct (q k).
    + cbn [map snd length sum_list fold_right] in *. split; [|lia]. rewrite Nat.sub_succ. unfold sum_list in IH1. rewrite IH1. ring.
    + set (sel := map snd (filter _ _)) in *. split; [|lia]. cbn [map sum_list fold_right]. unfold sum_list in IH1. rewrite IH1, (Hr eq_refl).
      rewrite Nat.sub_succ_l by exact IH2. rewrite S_INR. unfold sum_list. ring.
Qed.

(** ** The theorem *)

Lemma existsb_filter {A} (f keep : A -> bool) l : (forall x, In x l -> keep x = false -> f x = false) ->
  existsb f (filter keep l) = existsb f l.
Proof.
  induction l as [|x l IH]; intros Hf; [reflexivity|]. cbn [filter existsb].
  rewrite <- IH by (intros y Hy; apply Hf; now right). destruct (keep x) eqn:K; [reflexivity|].
  now rewrite (Hf x (or_introl eq_refl) K).
Qed.

Lemma existsb_ext_in {A} (f g : A -> bool) l : (forall x, In x l -> f x = g x) -> existsb f l = existsb g l.
Proof.
  induction l as [|x l IH]; intros E; [reflexivity|]. cbn [existsb]. rewrite (E x (or_introl eq_refl)). f_equal.
  apply IH. intros y Hy. apply E. now right.
Qed.

Definition of_kept_equation (ms : names) (lb : label) : Prop :=
  match lb with
  | (CControls, _, v, _) | (CLoadings, _, v, _) | (CMeasSds, _, v, _) => ~ named ms v
  | _ => True
  end.

Lemma removed_param ms md lb : of_kept_equation ms lb -> is_param md lb ->
  is_param (map_factors (reduced_factor ms) md) lb.
Proof.
  intros Hlb Hi. set (md' := map_factors (reduced_factor ms) md).
  assert (Hlat : latent_of md' = latent_of md) by apply map_factors_latent.
  assert (Hn' : forall m, has_n_periods md m -> has_n_periods md' m).
  { intros m Hm. apply (map_factors_periods (reduced_factor ms) md m); [apply reduced_factor_length|exact Hm]. }
  assert (Hinv : forall t f v, ~ named ms v -> involves md t f v -> involves md' t f v).
  { intros t f v Hv [M|[(m & Hm & Ht) A]]; [left; now apply reduced_measures|right]. split; [|exact A]. eauto. }
  destruct Hi as [t v c (f & Hf) Hc|t v f Hi Hf|t v (f & Hf)|t f m Hm Ht Hf|e f He Hf|e He|e row col fr fc He Hr Hc Hle|t m f fs name Hm Ht Hf Hname];
    cbn [of_kept_equation] in Hlb.
  - constructor; [|exact Hc]. exists f. auto.
  - constructor; [auto|]. now rewrite Hlat.
  - constructor. exists f. auto.
  - apply (par_shock_sd md' t f m (Hn' m Hm) Ht). now rewrite Hlat.
  - constructor; [exact He|]. now rewrite Hlat.
  - now constructor.
  - econstructor; rewrite ?Hlat; eassumption.
  - apply (par_transition md' t m f (reduced_factor ms fs) name (Hn' m Hm) Ht).
    + apply map_factors_In. eauto.
    + rewrite Hlat. exact Hname.
Qed.

Section Removed.
  Variable qr : qr_function.
  Variables nan neg_inf : R.
  Variable custom : string -> dict R -> dict R -> list R -> result R.
  Variables (md : model_dict) (p : processed) (n : nat) (df : frame R) (ids lv : list Z) (ar : arrays R)
    (params : list R) (ps : parsed R) (val : label -> R) (ms : names).
  Let md' := map_factors (reduced_factor ms) md.
  Variables (p' : processed) (df' : frame R) (ar' : arrays R) (params' : list R) (ps' : parsed R) (val' : label -> R).
  Hypothesis H : likelihood_setting md p n df ids lv ar params ps.
  Hypothesis Hclean : clean_anchoring md.
  Hypothesis Hval : parameter_values (params_index_of p) params val.
  Hypothesis Hother : forall x, In x (controls_of md ++ observed_of md ++ map copy_name (outcomes_of md)) -> ~ named ms x.
  Hypothesis Hmeas : every_period_measured md' n.
  Hypothesis H' : likelihood_setting md' p' n df' ids lv ar' params' ps'.
  Hypothesis Hval' : parameter_values (params_index_of p') params' val'.
  Hypothesis Hsame : forall lb, In lb (params_index_of p') -> val' lb = val lb.
  Hypothesis Hmissing : forall id t v, In id ids -> (t < n)%nat -> named ms v -> value 1 md df lv id t v = None.
  Hypothesis Hdata : forall id t x, In id ids -> (t < n)%nat -> ~ named ms x -> value 1 md' df' lv id t x = value 1 md df lv id t x.

  Let Hwf : wf_dicts md. Proof. apply H. Qed.
  Let Hp : process_model md = Ok p. Proof. apply H. Qed.
  Let Hn : has_n_periods md n. Proof. apply H. Qed.
  Let Hwf' : wf_dicts md'. Proof. apply H'. Qed.
  Let Hp' : process_model md' = Ok p'. Proof. apply H'. Qed.
  Let Hn' : has_n_periods md' n. Proof. apply H'. Qed.
  Let Hlat : latent_of md' = latent_of md. Proof. apply map_factors_latent. Qed.
  Let inp := inputs_of ps ar.
  Let inp' := inputs_of ps' ar'.
  Let tfunc := model_tfunc nan neg_inf custom md (p_labels p).

  Lemma removed_copies fo : In fo (outcomes_of md) -> ~ named ms (copy_name fo).
  Proof. intros Hfo. apply Hother. apply in_or_app. right. apply in_or_app. right. now apply in_map. Qed.
  Lemma removed_controls c : In c (controls_of md) -> ~ named ms c.
  Proof. intros Hc. apply Hother. apply in_or_app. now left. Qed.
  Lemma removed_observed c : In c (observed_of md) -> ~ named ms c.
  Proof. intros Hc. apply Hother. apply in_or_app. right. apply in_or_app. now left. Qed.
  Lemma removed_constant : ids <> [] -> ~ named ms "constant"%string.
  Proof.
    intros Hne Hc. destruct ids as [|id l] eqn:E; [congruence|].
    pose proof (n_ge_1 md p n df _ lv ar params ps H) as H1.
    specialize (Hmissing id O "constant"%string (or_introl eq_refl) ltac:(lia) Hc).
    unfold value, data_value in Hmissing.
    assert (F : find (fun fo => String.eqb "constant" (copy_name fo)) (outcomes_of md) = None).
    { destruct (find _ (outcomes_of md)) as [fo|] eqn:F; [|reflexivity]. apply find_some in F as [Hin F].
      apply String.eqb_eq in F. exfalso. apply (removed_copies fo Hin). now rewrite <- F. }
    rewrite F in Hmissing. discriminate.
  Qed.

  Lemma removed_eqs : equations md' n = filter (is_kept ms) (equations md n).
  Proof. apply removed_equations. exact removed_copies. Qed.

  Lemma removed_values lb : of_kept_equation ms lb -> val lb = val' lb.
  Proof.
    intros Hlb. destruct (in_dec label_eq_dec lb (params_index_of p')) as [I|N]; [symmetry; now apply Hsame|].
    rewrite (proj2 Hval' lb N). apply (proj2 Hval). intros F. apply N.
    apply (In_params_index md' p' lb Hwf' Hp'). apply removed_param; [exact Hlb|].
    now apply (In_params_index md p lb Hwf Hp).
  Qed.

  Lemma removed_clean : clean_anchoring md'.
  Proof.
    destruct Hclean as (A & B & C). split; [|split].
    - rewrite Hlat. exact A.
    - exact B.
    - intros t f o g Ho M. apply reduced_measures in M as [M _]. exact (C t f o g Ho M).
  Qed.

  Lemma removed_given id t x : In id ids -> (t < n)%nat -> ~ named ms x ->
    given_value md n df lv id t x = given_value md' n df' lv id t x.
  Proof.
    intros Hid Ht Hx. unfold given_value. rewrite (Hdata id t x Hid Ht Hx).
    change (controls_of md') with (controls_of md).
    rewrite (existsb_ext_in (fun c => is_missing (value 1 md' df' lv id t c)) (fun c => is_missing (value 1 md df lv id t c)) (controls_of md))
      by (intros c Hc; now rewrite (Hdata id t c Hid Ht (removed_controls c Hc))).
    rewrite removed_eqs.
    rewrite (existsb_ext_in (fun e => (fst e =? t)%nat && negb (is_missing (value 1 md' df' lv id t (snd e))))
      (fun e => (fst e =? t)%nat && negb (is_missing (value 1 md df lv id t (snd e)))) (filter (is_kept ms) (equations md n))).
    - rewrite (existsb_filter _ (is_kept ms) (equations md n)); [reflexivity|].
      intros [s v] _ Hk. cbn [fst snd]. rewrite (Hmissing id t v Hid Ht); [apply andb_false_r|].
      apply named_smem. unfold is_kept in Hk. cbn [snd] in Hk. now destruct (smem v (as_list ms)).
    - intros [s v] Hin. apply filter_In in Hin as [_ Hk]. apply is_kept_spec in Hk. cbn [fst snd]. now rewrite (Hdata id t v Hid Ht Hk).
  Qed.

  Let Hgiven : forall id t x, In id ids -> (t < n)%nat -> handed_over 1 md n df lv id t x (given_value md n df lv id t x).
  Proof. intros. apply given_handed. Qed.
  Let Hgiven' : forall id t x, In id ids -> (t < n)%nat -> handed_over 1 md' n df' lv id t x (given_value md' n df' lv id t x).
  Proof. intros. apply given_handed. Qed.

  Lemma removed_equation_agrees j j' t v : nth_error (equations md n) j = Some (t, v) ->
    nth_error (equations md' n) j' = Some (t, v) -> equation_agrees inp inp' j j' t.
  Proof.
    intros Hj Hj'.
    assert (Ht : (t < n)%nat) by (apply (equations_period md n t v); eapply nth_error_In, Hj).
    assert (Hv : ~ named ms v).
    { pose proof (nth_error_In _ _ Hj') as Hin. rewrite removed_eqs in Hin. apply filter_In in Hin as [_ Hk]. now apply is_kept_spec in Hk. }
    refine (related_equation md p n df lv ar params ps val md' p' n df' lv ar' params' ps' val' ids H Hval H' Hval' Hlat
      _ _ Hgiven Hgiven' j j' t v Hj Hj' eq_refl _ _ _ _).
    - intros f _. now apply removed_values.
    - intros c _. now apply removed_values.
    - now apply removed_values.
    - intros id x Hid [->|[<-|Hx]].
      + now apply removed_given.
      + apply removed_given; [exact Hid|exact Ht|]. apply removed_constant. intros E. rewrite E in Hid. destruct Hid.
      + apply removed_given; [exact Hid|exact Ht|]. now apply removed_controls.
  Qed.

  Lemma removed_transition_agrees t : (S t < n)%nat -> transition_agrees tfunc tfunc inp inp' t.
  Proof.
    intros Ht.
    assert (Es : forall s, (s < n)%nat -> in_scaling inp s = in_scaling inp' s).
    { intros s Hs. refine (related_scaling md p n df lv ar params ps val md' p' n df' lv ar' params' ps' val' ids H Hval Hclean H' Hval' removed_clean Hlat
        eq_refl eq_refl s Hs Hs _). intros fo Hfo. apply removed_values. exact (removed_copies fo Hfo). }
    assert (Ec : forall s, (s < n)%nat -> in_constants inp s = in_constants inp' s).
    { intros s Hs. refine (related_constants md p n df lv ar params ps val md' p' n df' lv ar' params' ps' val' ids H Hval Hclean H' Hval' removed_clean Hlat
        eq_refl eq_refl eq_refl s Hs Hs _). intros fo Hfo. apply removed_values. exact (removed_copies fo Hfo). }
    assert (Et : transitions_of md' = transitions_of md).
    { unfold transitions_of, md'. cbn [md_factors map_factors]. rewrite map_map. reflexivity. }
    split; [|split; [|split; [|split; [|split; [|split]]]]]; try (apply Es; lia); try (apply Ec; lia).
    - f_equal. refine (related_coeffs md p n df lv ar params ps val md' p' n df' lv ar' params' ps' val' ids H Hval H' Hval' Hlat eq_refl t _ _ Et _); try lia.
      intros f x. now apply removed_values.
    - refine (related_shocks md p n df lv ar params ps val md' p' n df' lv ar' params' ps' val' ids H Hval H' Hval' Hlat t _ _ _); try lia.
      intros f _. now apply removed_values.
    - refine (related_observed md p n df lv ar params ps md' p' n df' lv ar' params' ps' ids H H' eq_refl _ _ Hgiven Hgiven' t _ _ _); try lia.
      intros id x Hid Hx. apply removed_given; [exact Hid|lia|now apply removed_observed].
  Qed.

  Lemma removed_initial : initial_belief ps = initial_belief ps'.
  Proof.
    refine (related_initial md p n df lv ar params ps val md' p' n df' lv ar' params' ps' val' ids H Hval H' Hval' Hlat eq_refl _ _ _);
      intros; now apply removed_values.
  Qed.

  Lemma removed_missing j t v : nth_error (equations md n) j = Some (t, v) -> is_kept ms (t, v) = false ->
    is_anchoring_equation md v = false /\ forall i, in_values inp j i = None.
  Proof.
    intros Hj Hk.
    assert (Hv : named ms v) by (apply named_smem; unfold is_kept in Hk; cbn [snd] in Hk; now destruct (smem v (as_list ms))).
    assert (Ht : (t < n)%nat) by (apply (equations_period md n t v); eapply nth_error_In, Hj).
    split.
    - destruct (is_anchoring_equation md v) eqn:E; [|reflexivity]. unfold is_anchoring_equation in E.
      apply existsb_exists in E as (x & Hx & E). apply String.eqb_eq in E as <-. apply in_map_iff in Hx as (fo & <- & Hfo).
      exfalso. exact (removed_copies fo Hfo Hv).
    - intros i. unfold inp. rewrite (values_form md p n df ids lv ar params ps H _ Hgiven j t v Hj). unfold oarr1.
      destruct (nth_error (map (fun id => given_value md n df lv id t v) ids) i) as [x|] eqn:E.
      + rewrite (nth_of_nth_error _ _ _ None E). rewrite nth_error_map in E. destruct (nth_error ids i) as [id|] eqn:Ei; [|discriminate].
        injection E as <-. unfold given_value. rewrite (Hmissing id t v (nth_error_In _ _ Ei) Ht Hv). now destruct (_ && _).
      + apply nth_error_None in E. now rewrite nth_overflow.
  Qed.

  Lemma removed_measured : every_period_measured md n.
  Proof.
    intros t Ht. destruct (Hmeas t Ht) as (v & Hv). exists v. rewrite removed_eqs in Hv. now apply filter_In in Hv as [Hv _].
  Qed.

  Lemma removed_run recs :
    run_model qr nan tfunc p (length ids) ps ar (code_events 0 (purposes (p_update p))) = Ok recs -> length recs = length (p_update p) ->
    let q := kept_number md n (is_kept ms) in
    run_model qr nan (model_tfunc nan neg_inf custom md' (p_labels p')) p' (length ids) ps' ar' (code_events 0 (purposes (p_update p')))
      = Ok (map snd (filter (fun kr => q (fst kr)) (combine (seq 0 (length recs)) recs))) /\
    Forall (fun kr => q (fst kr) = false -> re_contribution (snd kr) = fun _ => 0) (combine (seq 0 (length recs)) recs).
  Proof.
    intros E Hl q.
    assert (Et : transitions_of md' = transitions_of md).
    { unfold transitions_of, md'. cbn [md_factors map_factors]. rewrite map_map. reflexivity. }
    rewrite (related_tfunc nan neg_inf custom md md' p p' Hp Hp' Et eq_refl).
    rewrite (schedule_code md' p' n Hwf' Hp' Hn' Hmeas). unfold run_model in E |- *. rewrite <- removed_initial.
    destruct (p_dims_eq md p Hp) as (D1 & D2 & D3 & D4 & _). destruct (p_dims_eq md' p' Hp') as (D1' & D2' & D3' & D4' & _).
    rewrite D1', D2', D3', D4', Hlat. rewrite D1, D2, D3, D4 in E.
    rewrite (p_options_eq _ _ Hp) in E. rewrite (p_options_eq _ _ Hp').
    assert (Ei : equations_of_events (schedule md n) = seq 0 (length recs)).
    { rewrite <- (schedule_code md p n Hwf Hp Hn removed_measured), equations_of_code, Hl. unfold purposes. now rewrite map_length. }
    rewrite (schedule_code md p n Hwf Hp Hn removed_measured) in E. rewrite <- Ei.
    refine (run_thinned qr nan tfunc tfunc (length ids) _ _ _ _ _ inp inp' q _ _ _ _ recs E).
    apply thin_schedule.
    - exact removed_eqs.
    - reflexivity.
    - exact removed_equation_agrees.
    - exact removed_missing.
    - exact removed_transition_agrees.
  Qed.
End Removed.

(** Removing measurements from the model gives, on data with these measurements, what
    the full model gives on data in which they are always missing: the same
    contributions, residuals and states for all remaining equations, and a contribution
    of zero (before clipping) for the others. *)
Theorem C94_removed_is_missing :
  forall qr nan neg_inf custom md p n df ids lv ar params ps val measurements md' p' df' ar' params' ps' val' out,
    likelihood_setting md p n df ids lv ar params ps -> clean_anchoring md ->
    parameter_values (params_index_of p) params val ->
    remove_measurements measurements md None = Ok (md', None) ->
    (forall x, In x (controls_of md ++ observed_of md ++ map copy_name (outcomes_of md)) -> ~ named measurements x) ->
    every_period_measured md' n ->
    likelihood_setting md' p' n df' ids lv ar' params' ps' ->
    parameter_values (params_index_of p') params' val' ->
    (forall lb, In lb (params_index_of p') -> val' lb = val lb) ->
    (forall id t v, In id ids -> (t < n)%nat -> named measurements v -> value 1 md df lv id t v = None) ->
    (forall id t x, In id ids -> (t < n)%nat -> ~ named measurements x ->
       value 1 md' df' lv id t x = value 1 md df lv id t x) ->
    log_likelihood qr nan (model_tfunc nan neg_inf custom md (p_labels p)) p ar true params = Ok out ->
    exists dbg out' dbg',
      log_likelihood qr nan (model_tfunc nan neg_inf custom md' (p_labels p')) p' ar' true params' = Ok out' /\
      out_debug out = Some dbg /\ out_debug out' = Some dbg' /\
      (forall t v, In (t, v) (equations md' n) <-> In (t, v) (equations md n) /\ ~ named measurements v) /\
      (forall j j' t v, nth_error (equations md n) j = Some (t, v) -> nth_error (equations md' n) j' = Some (t, v) ->
         do_all_contributions dbg' j' = do_all_contributions dbg j /\
         do_residuals dbg' j' = do_residuals dbg j /\ do_residual_sds dbg' j' = do_residual_sds dbg j /\
         do_filtered_states dbg' j' = do_filtered_states dbg j /\ do_logw dbg' j' = do_logw dbg j) /\
      (forall j t v i, nth_error (equations md n) j = Some (t, v) -> named measurements v -> do_all_contributions dbg j i = 0) /\
      do_initial_states dbg' = do_initial_states dbg /\ do_initial_logw dbg' = do_initial_logw dbg /\
      (forall i, out_contributions out i = out_contributions out' i
         + INR (length (equations md n) - length (equations md' n)) * clip_with (p_options p) 0).
Proof.
  intros qr nan neg_inf custom md p n df ids lv ar params ps val ms md' p' df' ar' params' ps' val' out
    H Hclean Hval Hred Hother Hmeas H' Hval' Hsame Hmissing Hdata Hout.
  rewrite remove_measurements_eq in Hred. cbn [with_params] in Hred. injection Hred as <-.
  assert (Hwf : wf_dicts md) by apply H. assert (Hp : process_model md = Ok p) by apply H.
  assert (Hn : has_n_periods md n) by apply H. set (md' := map_factors (reduced_factor ms) md) in *.
  assert (Hwf' : wf_dicts md') by apply H'. assert (Hp' : process_model md' = Ok p') by apply H'.
  assert (Hn' : has_n_periods md' n) by apply H'.
  assert (Eeq : equations md' n = filter (is_kept ms) (equations md n)).
  { apply removed_equations. intros fo Hfo. apply Hother. apply in_or_app. right. apply in_or_app. right. now apply in_map. }
  assert (Hlu : length (p_update p) = length (equations md n)).
  { rewrite (equations_update md p n Hwf Hp Hn). now rewrite map_length. }
  assert (Hlu' : length (p_update p') = length (equations md' n)).
  { rewrite (equations_update md' p' n Hwf' Hp' Hn'). now rewrite map_length. }
  destruct (p_dims_eq md p Hp) as (_ & D2 & _ & D4 & _). destruct (p_dims_eq md' p' Hp') as (_ & D2' & _ & D4' & _).
  assert (Hne : p_update p <> []).
  { pose proof (n_ge_1 md p n df ids lv ar params ps H) as H1. destruct (Hmeas O ltac:(lia)) as (v & Hv). rewrite Eeq in Hv.
    apply filter_In in Hv as [Hv _]. intros E. rewrite E in Hlu. destruct (equations md n); [destruct Hv|discriminate]. }
  destruct (shapes_fit (length ids) (n_mixtures (p_dims p)) (n_observed (p_dims p))) eqn:Hfit;
    [|rewrite (likelihood_misfits qr nan _ md p n df ids lv ar params ps true H Hfit Hne) in Hout; discriminate].
  assert (Hfit' : shapes_fit (length ids) (n_mixtures (p_dims p')) (n_observed (p_dims p')) = true).
  { rewrite D2', D4'. rewrite D2, D4 in Hfit. exact Hfit. }
  destruct (likelihood_events qr nan (model_tfunc nan neg_inf custom md (p_labels p)) md p n df ids lv ar params ps true H Hfit)
    as (recs & out0 & Er & Hl & Eo & Hr).
  rewrite Hout in Eo. injection Eo as <-.
  destruct (likelihood_events qr nan (model_tfunc nan neg_inf custom md' (p_labels p')) md' p' n df' ids lv ar' params' ps' true H' Hfit')
    as (recs' & out' & Er' & Hl' & Eo' & Hr').
  destruct (removed_run qr nan neg_inf custom md p n df ids lv ar params ps val ms p' df' ar' params' ps' val'
              H Hclean Hval Hother Hmeas H' Hval' Hsame Hmissing Hdata recs Er Hl) as [E1 HF].
  fold md' in E1. rewrite Er' in E1. injection E1 as E1.
  destruct Hr as (V & C & _ & Hd). destruct (Hd eq_refl) as (dbg & Hdbg & I1 & I2 & K).
  destruct Hr' as (V' & C' & _ & Hd'). destruct (Hd' eq_refl) as (dbg' & Hdbg' & I1' & I2' & K').
  exists dbg, out', dbg'. split; [exact Eo'|]. split; [exact Hdbg|]. split; [exact Hdbg'|].
  assert (Hq : forall i e, nth_error (equations md n) i = Some e -> kept_number md n (is_kept ms) (0 + i) = is_kept ms e).
  { intros i e Hi. unfold kept_number. cbn [Nat.add]. now rewrite Hi. }
  split; [|split; [|split; [|split; [|split]]]].
  - intros t v. rewrite Eeq, filter_In, is_kept_spec. reflexivity.
  - intros j j' t v Hj Hj'. rewrite Eeq in Hj'.
    destruct (select_nth (is_kept ms) (kept_number md n (is_kept ms)) (equations md n) recs 0 ltac:(congruence) Hq j' (t, v) Hj')
      as (j2 & Hj2 & Er2).
    assert (j2 = j) as ->.
    { apply (proj1 (NoDup_nth_error (equations md n)) (NoDup_first_appearances _ _)).
      - apply nth_error_Some. congruence.
      - congruence. }
    rewrite <- Hlu, <- Hl, <- E1 in Er2.
    destruct (nth_error recs j) as [r|] eqn:Ej.
    2: { exfalso. apply nth_error_None in Ej. assert (j < length (equations md n))%nat by (apply nth_error_Some; congruence). lia. }
    destruct (K j r Ej) as (K1 & K2 & K3 & K4 & K5). destruct (K' j' r Er2) as (K1' & K2' & K3' & K4' & K5').
    rewrite K1, K2, K3, K4, K5, K1', K2', K3', K4', K5'. repeat split; reflexivity.
  - intros j t v i Hj Hv. destruct (nth_error recs j) as [r|] eqn:Ej.
    2: { exfalso. apply nth_error_None in Ej. assert (j < length (equations md n))%nat by (apply nth_error_Some; congruence). lia. }
    rewrite (proj1 (K j r Ej)).
    assert (Hin : In (j, r) (combine (seq 0 (length recs)) recs)) by (apply In_enumerate; exact Ej).
    rewrite Forall_forall in HF. specialize (HF (j, r) Hin). cbn [fst snd] in HF. rewrite HF; [reflexivity|].
    rewrite <- (Nat.add_0_l j), (Hq j (t, v) Hj). unfold is_kept. cbn [snd]. apply named_smem in Hv. now rewrite Hv.
  - rewrite I1, I1'. f_equal. symmetry.
    exact (removed_initial md p n df ids lv ar params ps val ms p' df' ar' params' ps' val' H Hval H' Hval' Hsame).
  - rewrite I2, I2'. f_equal. symmetry.
    exact (removed_initial md p n df ids lv ar params ps val ms p' df' ar' params' ps' val' H Hval H' Hval' Hsame).
  - intros i. rewrite C, C'. unfold contribution_of. rewrite (p_options_eq _ _ Hp'), (p_options_eq _ _ Hp).
    change (process_estimation_options md') with (process_estimation_options md).
    destruct (select_sum (fun r => clip_with (process_estimation_options md) (re_contribution r i))
      (clip_with (process_estimation_options md) 0) (kept_number md n (is_kept ms)) recs 0) as [S1 _].
    { eapply Forall_impl; [|exact HF]. cbn beta. intros kr Hkr Hk. now rewrite (Hkr Hk). }
    cbn zeta in S1. rewrite <- E1 in S1. rewrite S1, <- Hlu, <- Hlu', Hl, Hl'. reflexivity.
Qed.
Print Assumptions C94_removed_is_missing.

(** The example with a constant factor, without the measurements b and s (which loads on
    both factors); the data of the full model with these columns missing. *)
Definition hide (ms : names) (df : frame Z) : frame Z :=
  mk_frame (fr_columns df) (fr_id_level df) (fr_period_level df)
    (map (fun r => mk_drow (dr_id r) (dr_period r) (fun c => if smem c (as_list ms) then None else dr_cells r c)) (fr_rows df)).

Lemma hide_raw ms df lv id t x : raw_cells (hide ms df) lv id t x = if smem x (as_list ms) then None else raw_cells df lv id t x.
Proof.
  unfold raw_cells. destruct (nth_error lv t) as [z|]; [|now destruct (smem x (as_list ms))].
  unfold hide. cbn [fr_rows]. induction (fr_rows df) as [|r l IH]; [now destruct (smem x (as_list ms))|].
  cbn [map find dr_id dr_period]. destruct (Z.eqb (dr_id r) id && Z.eqb (dr_period r) z)%bool; [reflexivity|exact IH].
Qed.

Lemma hide_setting md p n ms df ids lv : data_setting md p n df ids lv -> data_setting md p n (hide ms df) ids lv.
Proof.
  intros (H1 & H2 & H3 & H4 & H5 & [H6 H6'] & H7). repeat (split; [assumption|]). split; [|split].
  - intros r Hr. unfold hide in Hr. cbn [fr_rows] in Hr. apply in_map_iff in Hr as (r0 & <- & Hr0). apply (H5 r0 Hr0).
  - split; [assumption|]. intros z. rewrite H6'. unfold hide. cbn [fr_rows]. split.
    + intros (r & Hr & HP). eexists. split; [apply in_map, Hr|exact HP].
    + intros (r & Hr & HP). apply in_map_iff in Hr as (r0 & <- & Hr0). exists r0. auto.
  - assumption.
Qed.

Definition few_names : names := Many ["b"; "s"]%string.
Definition few_model : model_dict := map_factors (reduced_factor few_names) kept_model.
Definition few_p : processed := get_ok (process_model few_model) small_p.
Lemma few_accepted : process_model few_model = Ok few_p.
Proof. vm_compute. reflexivity. Qed.
Definition few_params : list R := map kept_value (params_index_of few_p).

Lemma few_setting : data_setting few_model few_p 3 ex_df ex_ids ex_lv.
Proof.
  destruct kept_setting as (H1 & _ & H3 & H4 & H5 & H6 & H7).
  split; [exact H1|]. split; [exact few_accepted|].
  split; [exact (proj2 (map_factors_periods (reduced_factor few_names) kept_model 3 (reduced_factor_length few_names)) H3)|].
  split; [exact H4|]. split; [exact H5|]. split; [exact H6|exact H7].
Qed.

Lemma few_good_names : good_names few_model.
Proof.
  destruct kept_good_names as (G1 & G2 & G3 & G4 & G5 & _). split; [exact G1|].
  split; [exact G2|]. split; [exact G3|]. split; [exact G4|]. split; [exact G5|].
  intros f fs k names [[= <- <-]|[[= <- <-]|[]]] E; discriminate.
Qed.

Lemma few_clean : clean_anchoring few_model.
Proof. exact (removed_clean kept_model few_names kept_clean). Qed.

Lemma few_example : exists ar ps,
  likelihood_setting few_model few_p 3 (real_frame ex_df) ex_ids ex_lv ar few_params ps.
Proof.
  destruct (real_process few_model few_p 3 ex_df ex_ids ex_lv
              (get_ok (process_data 1%Z Z.eqb ex_df (p_labels few_p) (p_update few_p) (p_anch few_p) true)
                 ex_arrays) few_setting) as [ar Har].
  { vm_compute. reflexivity. }
  assert (Hl : length few_params = length (params_index_of few_p)) by apply map_length.
  destruct (C09_parsing_succeeds R 0 1 ln few_model few_p 3 (length ex_ids) few_params) as [ps Hps].
  - apply few_setting.
  - apply (idx_NoDup few_model few_p); [apply few_setting|exact few_good_names|exact few_accepted].
  - exact few_accepted.
  - apply few_setting.
  - exact Hl.
  - exact few_clean.
  - lia.
  - apply Nat.leb_le. reflexivity.
  - exists ar, ps. split; [apply real_setting, few_setting|]. split; [exact few_good_names|].
    split; [exact Har|]. split; [exact Hl|exact Hps].
Qed.

Lemma hidden_example : exists ar ps,
  likelihood_setting kept_model kept_p 3 (real_frame (hide few_names ex_df)) ex_ids ex_lv ar kept_params ps.
Proof.
  destruct (real_process kept_model kept_p 3 (hide few_names ex_df) ex_ids ex_lv
              (get_ok (process_data 1%Z Z.eqb (hide few_names ex_df) (p_labels kept_p) (p_update kept_p) (p_anch kept_p) true)
                 ex_arrays) (hide_setting _ _ _ few_names _ _ _ kept_setting)) as [ar Har].
  { vm_compute. reflexivity. }
  destruct kept_example as (ar0 & ps & H0). exists ar, ps.
  destruct H0 as (_ & Hg & _ & Hl & Hps).
  split; [apply real_setting, hide_setting, kept_setting|]. split; [exact Hg|]. split; [exact Har|]. split; [exact Hl|exact Hps].
Qed.

Example C94_nonvacuous : exists ar ps val ar' ps' val' out,
  likelihood_setting kept_model kept_p 3 (real_frame (hide few_names ex_df)) ex_ids ex_lv ar kept_params ps /\
  clean_anchoring kept_model /\ parameter_values (params_index_of kept_p) kept_params val /\
  remove_measurements few_names kept_model None = Ok (few_model, None) /\
  (forall x, In x (controls_of kept_model ++ observed_of kept_model ++ map copy_name (outcomes_of kept_model)) -> ~ named few_names x) /\
  every_period_measured few_model 3 /\
  likelihood_setting few_model few_p 3 (real_frame ex_df) ex_ids ex_lv ar' few_params ps' /\
  parameter_values (params_index_of few_p) few_params val' /\
  (forall lb, In lb (params_index_of few_p) -> val' lb = val lb) /\
  (forall id t v, In id ex_ids -> (t < 3)%nat -> named few_names v -> value 1 kept_model (real_frame (hide few_names ex_df)) ex_lv id t v = None) /\
  (forall id t x, In id ex_ids -> (t < 3)%nat -> ~ named few_names x ->
     value 1 few_model (real_frame ex_df) ex_lv id t x = value 1 kept_model (real_frame (hide few_names ex_df)) ex_lv id t x) /\
  log_likelihood gram_schmidt 0 (model_tfunc 0 0 (fun _ _ _ _ => Ok 0) kept_model (p_labels kept_p)) kept_p ar true kept_params = Ok out /\
  length (equations kept_model 3) = 13%nat /\ length (equations few_model 3) = 11%nat.
Proof.
  destruct hidden_example as (ar & ps & H). destruct few_example as (ar' & ps' & H').
  assert (Hnd : NoDup (params_index_of kept_p)) by (apply (idx_NoDup kept_model kept_p); [apply kept_setting|exact kept_good_names|exact kept_model_accepted]).
  assert (Hnd' : NoDup (params_index_of few_p)) by (apply (idx_NoDup few_model few_p); [apply few_setting|exact few_good_names|exact few_accepted]).
  destruct (likelihood_events gram_schmidt 0 (model_tfunc 0 0 (fun _ _ _ _ => Ok 0) kept_model (p_labels kept_p))
     kept_model kept_p 3 (real_frame (hide few_names ex_df)) ex_ids ex_lv ar kept_params ps true H eq_refl) as (recs & out & _ & _ & Eo & _).
  exists ar, ps, (val_of 0 (params_index_of kept_p) kept_params), ar', ps', (val_of 0 (params_index_of few_p) few_params), out.
  split; [exact H|]. split; [exact kept_clean|]. split; [exact (values_ok _ kept_value Hnd)|]. split; [reflexivity|].
  assert (Hcopy : forall fo, In fo (outcomes_of kept_model) -> smem (copy_name fo) (as_list few_names) = false /\ smem (snd fo) (as_list few_names) = false)
    by (intros fo [<-|[<-|[]]]; split; reflexivity).
  split; [|split; [|split; [exact H'|split; [exact (values_ok _ kept_value Hnd')|split; [|split; [|split; [|split; [exact Eo|split; reflexivity]]]]]]]].
  - intros x Hx. repeat (destruct Hx as [<-|Hx]; [cbn; intuition discriminate|]). destruct Hx.
  - intros [|[|[|t]]] Ht; [exists "a"%string|exists "a"%string|exists "a"%string|exfalso; lia]; vm_compute; tauto.
  - intros lb Hlb.
    refine (eq_trans (val_of_values (params_index_of few_p) kept_value lb Hnd' Hlb) (eq_sym (val_of_values (params_index_of kept_p) kept_value lb Hnd _))).
    refine (proj2 (In_params_index kept_model kept_p lb (proj1 kept_setting) kept_model_accepted) _).
    refine (nested_is_param few_model kept_model 3 lb (nested_reduced few_names kept_model) (proj1 (proj2 (proj2 kept_setting))) _).
    exact (proj1 (In_params_index few_model few_p lb (proj1 few_setting) few_accepted) Hlb).
  - intros id t v _ _ Hv. rewrite real_value. unfold value, data_value. destruct (find _ (outcomes_of kept_model)) as [fo|] eqn:F.
    + apply find_some in F as [Hfo F]. apply String.eqb_eq in F as ->. apply named_smem in Hv. rewrite (proj1 (Hcopy fo Hfo)) in Hv. discriminate.
    + destruct Hv as [<-|[<-|[]]]; cbn [String.eqb]; rewrite hide_raw; reflexivity.
  - intros id t x _ _ Hx. rewrite !real_value. f_equal. unfold value, data_value.
    change (outcomes_of few_model) with (outcomes_of kept_model). destruct (find _ (outcomes_of kept_model)) as [fo|] eqn:F.
    + apply find_some in F as [Hfo _]. now rewrite hide_raw, (proj2 (Hcopy fo Hfo)).
    + destruct (String.eqb x "constant"); [reflexivity|]. rewrite hide_raw.
      destruct (smem x (as_list few_names)) eqn:E; [|reflexivity]. apply named_smem in E. contradiction.
Qed.
