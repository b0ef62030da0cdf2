(** Anchored models do not depend on the normalization of the latent factors (C92). *)
Require Import Reals Qreals Lra Lia Psatz Arith ZArith Bool String List.
From Verif Require Import PyBase ListFacts ModelSpec ProcessModel CheckModel SpecModel ProcessModelFacts
  SpecParse SpecIndex IndexFacts ParamsIndex ParseParams ExampleModels ParseFacts PropsSpec PropsParse ProcessData SpecData DataFacts PropsData
  RSum Kalman SpecKalman KalmanFacts PredictFacts QRWitness Clipping Likelihood SpecLikelihood ScheduleFacts LikelihoodFacts
  LikelihoodRun PropsKalman LikelihoodLocal PropsLikelihood PropsFiltered TransitionFunctions SpecTransition TransitionFacts PropsTransition
  SpecStateSpace SpecModelDensity ModelDensityFacts QRSigns PropsNumerics Renormalization.
Import ListNotations.
Open Scope R_scope.

(** ** Runs *)

(** The events start in period [t] and do not skip periods. *)
Fixpoint timed (t : nat) (evs : list event) : Prop :=
  match evs with
  | [] => True
  | Measure _ s :: evs' => s = t /\ timed t evs'
  | Anchor _ s :: evs' => s = t /\ timed t evs'
  | Transition s :: evs' => s = t /\ timed (S t) evs'
  end.

(** The periods of the equations among the events. *)
Fixpoint periods_of_events (evs : list event) : list nat :=
  match evs with
  | [] => []
  | Measure _ s :: evs' => s :: periods_of_events evs'
  | Anchor _ s :: evs' => s :: periods_of_events evs'
  | Transition _ :: evs' => periods_of_events evs'
  end.

Section Runs.
  Variable qr : qr_function.
  Hypothesis Hqr : correct_qr qr.
  Variable nan : R.
  Variable tfunc : dict (list R) -> vec -> vec.
  Variables (n_obs nm n no nc : nat) (kappa : R) (inp inp' : inputs) (c d : nat -> vec) (i : nat).
  Hypothesis Hnm : (1 <= nm)%nat.
  Hypothesis Hkappa : 0 <= kappa.
  Hypothesis Hpos : 0 < INR n + kappa.
  Hypothesis Hshape : no = O \/ nm = 1%nat.
  Hypothesis Htf : forall c, local_transition n (n + no) (tfunc c).

  Definition renormalized_equation (k t : nat) : Prop :=
    in_sd inp k <> 0 /\ in_sd inp' k = in_sd inp k /\ in_values inp' k = in_values inp k /\
    in_controls inp' t = in_controls inp t /\ (forall a, (a < n)%nat -> c t a <> 0) /\
    (forall a, (a < n)%nat -> in_loadings inp' k a = in_loadings inp k a / c t a) /\
    (in_values inp k i <> None ->
     dot nc (fun j => to_number nan (in_controls inp t i j)) (in_control_params inp' k)
     = dot nc (fun j => to_number nan (in_controls inp t i j)) (in_control_params inp k)
       - rsum n (fun a => in_loadings inp k a * d t a / c t a)).

  Definition renormalized_event (e : event) : Prop :=
    match e with
    | Measure k t => renormalized_equation k t
    | Anchor k t => renormalized_equation k t
    | Transition t =>
        regular_event tfunc n inp (Transition t) /\
        in_observed inp' t = in_observed inp t /\
        (forall a, (a < n)%nat -> c t a <> 0) /\ (forall a, (a < n)%nat -> c (S t) a <> 0) /\
        (forall v f, (f < n)%nat ->
           anchored_transition (tfunc (in_coeffs inp' t)) (fun r => in_scaling inp' (t + r)%nat) (fun r => in_constants inp' (t + r)%nat)
             (all_factors n (moved (c t) (d t) v) (fun o => to_number nan (in_observed inp t i o))) f
           = moved (c (S t)) (d (S t))
               (anchored_transition (tfunc (in_coeffs inp t)) (fun r => in_scaling inp (t + r)%nat) (fun r => in_constants inp (t + r)%nat)
                  (all_factors n v (fun o => to_number nan (in_observed inp t i o)))) f) /\
        (forall f, (f < n)%nat -> in_shock_sds inp' t f = in_shock_sds inp t f * c (S t) f)
    end.

  Definition renormalized_beliefs (t : nat) (b b' : belief) : Prop :=
    renormalized_factors nm n i (c t) (d t) (be_states b) (be_states b') (be_chols b) (be_chols b') /\
    forall m, (m < nm)%nat -> be_logw b i m = be_logw b' i m.

  Definition renormalized_record (tr : nat * record) (r' : record) : Prop :=
    re_contribution (snd tr) i = re_contribution r' i /\
    forall m, (m < nm)%nat ->
      veq n (moved (c (fst tr)) (d (fst tr)) (re_states (snd tr) i m)) (re_states r' i m) /\
      re_logw (snd tr) i m = re_logw r' i m /\
      re_residuals (snd tr) i m = re_residuals r' i m /\ re_residual_sds (snd tr) i m = re_residual_sds r' i m.

  Lemma update_renorm a k t b b' : renormalized_equation k t -> renormalized_beliefs t b b' ->
    renormalized_beliefs t (fst (update_event qr nan nm n nc inp a k t b)) (fst (update_event qr nan nm n nc inp' a k t b')) /\
    renormalized_record (t, snd (update_event qr nan nm n nc inp a k t b)) (snd (update_event qr nan nm n nc inp' a k t b')).
  Proof.
    intros (Hsd & Esd & Ev & Ec & Hc & Hl & Ho) [Hs Hw]. unfold update_event. cbn [fst snd]. rewrite Esd, Ev, Ec.
    pose proof (update_renormalized qr Hqr nan nm n nc i (c t) (d t) Hc _ _ _ _ (in_loadings inp k) (in_loadings inp' k)
      (in_control_params inp k) (in_control_params inp' k)
      (in_sd inp k) (in_values inp k) (in_controls inp t) (be_logw b) (be_logw b') Hsd Hs Hl Ho) as U.
    pose proof (loglikes_renormalized qr Hqr nan nm n nc i (c t) (d t) Hc _ _ _ _ (in_loadings inp k) (in_loadings inp' k)
      (in_control_params inp k) (in_control_params inp' k)
      (in_sd inp k) (in_values inp k) (in_controls inp t) (be_logw b) (be_logw b') Hnm Hs Hw Hl Ho) as L.
    pose proof (rest_renormalized qr Hqr nan nm n nc i (c t) (d t) Hc _ _ _ _ (in_loadings inp k) (in_loadings inp' k)
      (in_control_params inp k) (in_control_params inp' k)
      (in_sd inp k) (in_values inp k) (in_controls inp t) (be_logw b) (be_logw b') Hnm Hs Hw Hl Ho) as Rs.
    unfold renormalized_beliefs, renormalized_record.
    cbn [be_states be_chols be_logw re_contribution re_states re_logw re_residuals re_residual_sds fst snd].
    split; [split|split; [exact L|]].
    - destruct a; assumption.
    - intros m Hm. now apply Rs.
    - intros m Hm. destruct (Rs m Hm) as (R1 & R2 & R3). split; [|auto].
      destruct a; [now apply Hs|now apply U].
  Qed.

  Lemma run_renorm evs : forall t b b' recs recs', Forall renormalized_event evs -> timed t evs -> renormalized_beliefs t b b' ->
    run qr nan tfunc n_obs nm n no nc kappa inp evs b = Ok recs ->
    run qr nan tfunc n_obs nm n no nc kappa inp' evs b' = Ok recs' ->
    Forall2 renormalized_record (combine (periods_of_events evs) recs) recs'.
  Proof.
    induction evs as [|e evs IH]; intros t b b' recs recs' HF HT Hb E E'.
    - injection E as <-. injection E' as <-. constructor.
    - inversion HF as [|? ? He HF']; subst. destruct e as [k s|k s|s]; cbn [run] in E, E'; destruct HT as [-> HT];
        apply rbind_ok in E as (x & Ex & E); apply rbind_ok in E' as (x' & Ex' & E').
      + injection E as <-. injection E' as <-. cbn [periods_of_events combine].
        destruct (update_renorm false k t b b' He Hb) as [A B]. constructor; [exact B|]. eauto.
      + injection E as <-. injection E' as <-. cbn [periods_of_events combine].
        destruct (update_renorm true k t b b' He Hb) as [A B]. constructor; [exact B|]. eauto.
      + cbn [periods_of_events]. eapply IH; [exact HF'|exact HT| |exact E|exact E'].
        destruct Hb as [Hs Hw]. unfold transition_event in Ex, Ex'.
        apply rbind_ok in Ex as (y & Ey & [= <-]). apply rbind_ok in Ex' as (y' & Ey' & [= <-]).
        destruct He as (Hreg & Eob & Hc0 & Hc1 & Him & Hsh). rewrite Eob in Ey'.
        split; [|exact Hw]. cbn [be_states be_chols].
        exact (predict_renormalized qr Hqr n_obs nm n no i kappa (c t) (d t) (c (S t)) (d (S t)) Hc0 Hc1 Hkappa Hpos Hshape
                 _ _ _ _ Hs _ _ _ _ _ _ _ _ _ (Htf _) (Htf _) Hreg Him Hsh _ _ Ey Ey').
  Qed.
End Runs.

Lemma timed_period md t (ke : list (nat * (nat * string))) : forall evs, timed t evs ->
  timed t (map (fun ke => if is_anchoring_equation md (snd (snd ke)) then Anchor (fst ke) t else Measure (fst ke) t) ke ++ evs).
Proof.
  intros evs H. induction ke as [|e ke IH]; [exact H|]. cbn [map app].
  destruct (is_anchoring_equation md (snd (snd e))); cbn [timed]; auto.
Qed.

Lemma schedule_timed md n : timed 0 (schedule md n).
Proof.
  unfold schedule. assert (G : forall k s, (s + k = n)%nat -> timed s (flat_map (fun t => period_events md n t ++
      (if (t + 1 <? n)%nat then [Transition t] else [])) (seq s k))).
  { induction k as [|k IH]; intros s E; [exact I|]. cbn [seq flat_map]. rewrite <- app_assoc. unfold period_events at 1.
    apply (timed_period md).
    destruct (Nat.ltb_spec (s + 1) n) as [L|G].
    - cbn [app timed]. split; [reflexivity|]. apply IH. lia.
    - assert (k = O) as -> by lia. exact I. }
  apply G. lia.
Qed.

Lemma code_periods l : forall k, periods_of_events (code_events k l) = map fst l.
Proof.
  induction l as [|tb l IH]; intros k; [reflexivity|]. cbn [code_events map].
  assert (E : forall x, periods_of_events (ev k tb :: x) = fst tb :: periods_of_events x).
  { intros x. unfold ev. now destruct (snd tb). }
  change (periods_of_events (ev k tb :: ?x)) with (periods_of_events (ev k tb :: x)).
  rewrite E. f_equal. destruct l as [|tb' l]; [exact (IH (S k))|].
  destruct (fst tb' =? S (fst tb))%nat; exact (IH (S k)).
Qed.

Lemma code_events_at l : forall k e, In e (code_events k l) ->
  match e with
  | Measure j s | Anchor j s => exists i b, j = (k + i)%nat /\ nth_error l i = Some (s, b)
  | Transition t => exists tb, In tb l /\ fst tb = S t
  end.
Proof.
  induction l as [|tb l IH]; intros k e H; [destruct H|]. cbn [code_events] in H. destruct H as [<-|H].
  { unfold ev. destruct tb as [s b]. cbn [snd fst]. destruct b; exists O; eexists; (split; [lia|reflexivity]). }
  apply in_app_or in H as [H|H].
  - destruct l as [|tb' l]; [destruct H|]. destruct (Nat.eqb_spec (fst tb') (S (fst tb))) as [E|]; [|destruct H].
    destruct H as [<-|[]]. exists tb'. split; [right; now left|exact E].
  - apply IH in H. destruct e as [j s|j s|t].
    + destruct H as (i & b & -> & Hi). exists (S i), b. split; [lia|exact Hi].
    + destruct H as (i & b & -> & Hi). exists (S i), b. split; [lia|exact Hi].
    + destruct H as (x & Hx & E). exists x. split; [now right|exact E].
Qed.

(** * C92 *)

(** The parameters [val'] describe the same model as [val] when the latent factor [f] of
    period [t] is measured as [scale t f] times the factor plus [shift t f]: loadings are
    divided by the scale, constants absorb the shift, the distribution of the initial
    factors and the standard deviations of the shocks are stretched. Everything else is
    the same, the parameters of the transition functions are left open. *)
Definition renormalized_factor_units (md : model_dict) (n : nat) (scale shift : nat -> string -> R) (val val' : label -> R) : Prop :=
  (forall t v f, In (t, v) (equations md n) -> In f (latent_of md) ->
     val' (CLoadings, t, v, f) = val (CLoadings, t, v, f) / scale t f) /\
  (forall t v, In (t, v) (equations md n) ->
     val' (CControls, t, v, "constant"%string)
     = val (CControls, t, v, "constant"%string)
       - sum_of (latent_of md) (fun f => val (CLoadings, t, v, f) * shift t f / scale t f)) /\
  (forall e f, (e < n_mixtures_of md)%nat -> In f (latent_of md) ->
     val' (CInitStates, O, mixture_name e, f) = scale O f * val (CInitStates, O, mixture_name e, f) + shift O f) /\
  (forall e f g, In f (latent_of md) -> In g (latent_of md) ->
     val' (CInitChol, O, mixture_name e, cov_name f g) = val (CInitChol, O, mixture_name e, cov_name f g) * scale O f) /\
  (forall t f, In f (latent_of md) ->
     val' (CShockSds, t, f, "-"%string) = val (CShockSds, t, f, "-"%string) * scale (S t) f) /\
  (forall t v c, In c (controls_of md) -> val' (CControls, t, v, c) = val (CControls, t, v, c)) /\
  (forall t v, val' (CMeasSds, t, v, "-"%string) = val (CMeasSds, t, v, "-"%string)) /\
  (forall e, val' (CMixWeights, O, mixture_name e, "-"%string) = val (CMixWeights, O, mixture_name e, "-"%string)).

(** The parameters of the transition functions are the same, too. *)
Definition renormalized (md : model_dict) (n : nat) (scale shift : nat -> string -> R) (val val' : label -> R) : Prop :=
  renormalized_factor_units md n scale shift val val' /\
  (forall t f name, val' (CTransition, t, f, name) = val (CTransition, t, f, name)).

(** Only anchored factors may get another scale or location; another location only if the
    constants of the anchoring equations are taken into account. No scale and no anchoring
    loading is zero. *)
Definition anchoring_covers (md : model_dict) (n : nat) (scale shift : nat -> string -> R) (val : label -> R) : Prop :=
  (forall t f, (t < n)%nat -> In f (latent_of md) -> scale t f <> 0) /\
  (forall t f, (t < n)%nat -> In f (latent_of md) -> (forall o, ~ anchored md f o) -> scale t f = 1 /\ shift t f = 0) /\
  (ignores_constant md = true -> forall t f, (t < n)%nat -> In f (latent_of md) -> shift t f = 0) /\
  (forall t f o, (t < n)%nat -> anchored md f o -> val (CLoadings, t, copy_name (f, o), f) <> 0).

(** The same likelihood, contributions, residuals and mixture weights; the factors are
    those of the first output on the new scale. *)
Definition rescaled_output (md : model_dict) (n n_obs : nat) (scale shift : nat -> string -> R) (out out' : output) : Prop :=
  out_value out' = out_value out /\
  (forall i, (i < n_obs)%nat -> out_contributions out' i = out_contributions out i) /\
  match out_debug out, out_debug out' with
  | None, None => True
  | Some d, Some d' =>
      forall i k t v, (i < n_obs)%nat -> nth_error (equations md n) k = Some (t, v) ->
        do_all_contributions d' k i = do_all_contributions d k i /\
        forall m, (m < n_mixtures_of md)%nat ->
          do_residuals d' k i m = do_residuals d k i m /\
          do_residual_sds d' k i m = do_residual_sds d k i m /\
          do_logw d' k i m = do_logw d k i m /\ do_initial_logw d' i m = do_initial_logw d i m /\
          forall j f, nth_error (latent_of md) j = Some f ->
            do_filtered_states d' k i m j = scale t f * do_filtered_states d k i m j + shift t f /\
            do_initial_states d' i m j = scale O f * do_initial_states d i m j + shift O f
  | _, _ => False
  end.

Section Anchors.
  Variables (md : model_dict) (p : processed) (n : nat) (df : frame R) (ids lv : list Z) (ar : arrays R)
    (params : list R) (ps : parsed R) (val : label -> R).
  Hypothesis H : likelihood_setting md p n df ids lv ar params ps.
  Hypothesis Hval : parameter_values (params_index_of p) params val.
  Hypothesis Hclean : clean_anchoring md.
  Hypothesis Hord : anchored_in_order md.

  Let Hwf : wf_dicts md. Proof. apply H. Qed.
  Let Hp : process_model md = Ok p. Proof. apply H. Qed.
  Let Hn : has_n_periods md n. Proof. apply H. Qed.
  Let Hg : good_names md. Proof. apply H. Qed.
  Let Hlen : length params = length (params_index_of p). Proof. apply H. Qed.
  Let Hps : parse_for 0 1 ln p params (length ids) = Ok ps. Proof. apply H. Qed.
  Let inp := inputs_of ps ar.

  Lemma anchor_inputs t j f : (t < n)%nat -> nth_error (latent_of md ++ observed_of md) j = Some f ->
    (forall o, anchored md f o -> in_scaling inp t j = val (CLoadings, t, copy_name (f, o), f)) /\
    (forall o, anchored md f o -> ignores_constant md = false ->
       in_constants inp t j = val (CControls, t, copy_name (f, o), "constant"%string)) /\
    ((forall o, ~ anchored md f o) -> in_scaling inp t j = 1) /\
    ((forall o, ~ anchored md f o) \/ ignores_constant md = true -> in_constants inp t j = 0).
  Proof.
    intros Ht Hj.
    destruct (C12_anchoring_factors_partial R 0 1 ln md p n (length ids) params ps Hwf Hg Hp Hn Hlen Hps Hclean Hord)
      as (_ & _ & Ha).
    destruct (Ha t j f Ht Hj) as (x & c & (r1 & Hr1 & Hx) & (r2 & Hr2 & Hc) & A1 & A2 & A3 & A4).
    unfold inp, inputs_of, arr2, arr1. cbn [in_scaling in_constants].
    rewrite (nth_of_nth_error _ _ _ _ Hr1), (nth_of_nth_error _ _ _ _ Hx), (nth_of_nth_error _ _ _ _ Hr2), (nth_of_nth_error _ _ _ _ Hc).
    split; [|split; [|split; [exact A3|exact A4]]].
    - intros o Ho. exact (val_eq md p n df ids lv ar params ps val H Hval _ _ (A1 o Ho)).
    - intros o Ho Hi. exact (val_eq md p n df ids lv ar params ps val H Hval _ _ (A2 o Ho Hi)).
  Qed.

  Lemma observed_not_anchored j f : nth_error (observed_of md) j = Some f -> forall o, ~ anchored md f o.
  Proof.
    intros Hj o Ho. apply anchored_outcomes in Ho. apply (proj1 Hclean) in Ho.
    destruct Hg as [D _]. apply nth_error_In in Hj. clear -D Hj Ho. induction (latent_of md) as [|a l IH]; [destruct Ho|].
    cbn [app] in D. inversion_clear D as [|? ? N D']. destruct Ho as [->|Ho]; [|now apply IH].
    apply N. apply in_or_app. now right.
  Qed.

  Lemma anchored_or f : (exists o, anchored md f o) \/ forall o, ~ anchored md f o.
  Proof.
    destruct (Classical_Prop.classic (exists o, anchored md f o)) as [E|E]; [now left|right]. intros o Ho. apply E. now exists o.
  Qed.

  (** The only loading of an anchoring equation is that of the anchored factor. *)
  Lemma other_loading t f o g : (t < n)%nat -> anchored md f o -> g <> f ->
    val (CLoadings, t, copy_name (f, o), g) = 0.
  Proof.
    intros Ht Ho Hne. apply (proj2 Hval). intros Hin.
    apply (In_params_index md p _ Hwf Hp) in Hin. inversion Hin as [|? ? ? Hi Hl| | | | | |]; subst.
    destruct Hclean as (_ & Hnd & Hm). pose proof (proj1 (anchored_outcomes md f o) Ho) as Hfo. destruct Hi as [Hi|(_ & o' & Ho' & E)].
    - exact (Hm t f o g Hfo Hi).
    - pose proof (proj1 (anchored_outcomes md g o') Ho') as Hgo.
      assert (forall l x y, NoDup (map copy_name l) -> In x l -> In y l -> copy_name x = copy_name y -> x = y) as Inj.
      { clear. induction l as [|a l IH]; [intros ? ? _ []|]. intros x y D Hx Hy E.
        cbn [map] in D. inversion_clear D as [|? ? N D']. destruct Hx as [<-|Hx]; destruct Hy as [<-|Hy].
        - reflexivity.
        - destruct N. rewrite E. now apply in_map.
        - destruct N. rewrite <- E. now apply in_map.
        - exact (IH x y D' Hx Hy E). }
      pose proof (Inj _ (f, o) (g, o') Hnd Hfo Hgo E) as Q. injection Q as -> _. now apply Hne.
  Qed.

  Lemma anchoring_equation t f o : (t < n)%nat -> anchored md f o -> In (t, copy_name (f, o)) (equations md n).
  Proof.
    intros Ht Ho. rewrite <- (equations_keys md p n Hwf Hp Hn).
    apply (In_p_update_keys md p Hwf Hp). exists f. right. split; [now exists n|]. now exists o.
  Qed.
End Anchors.

Lemma sum_of_single l f F : NoDup l -> In f l -> (forall g : string, g <> f -> F g = 0) -> sum_of l F = F f.
Proof.
  intros D Hin Hz. assert (Z : forall l', ~ In f l' -> sum_of l' F = 0).
  { induction l' as [|g l' IH]; intros N; [reflexivity|]. cbn [sum_of]. rewrite Hz by (intros ->; apply N; now left).
    rewrite IH by (intros Hf; apply N; now right). ring. }
  induction l as [|g l IH]; [destruct Hin|]. inversion_clear D as [|? ? N D']. cbn [sum_of]. destruct Hin as [->|Hin].
  - rewrite (Z l N). ring.
  - rewrite Hz by (intros ->; contradiction). rewrite (IH D' Hin). ring.
Qed.

Section Units.
  Variable nan : R.
  Variables (md : model_dict) (p : processed) (n : nat) (df : frame R) (ids lv : list Z) (ar : arrays R)
    (params params' : list R) (ps ps' : parsed R) (val val' : label -> R) (scale shift : nat -> string -> R).
  Hypothesis H : likelihood_setting md p n df ids lv ar params ps.
  Hypothesis H' : likelihood_setting md p n df ids lv ar params' ps'.
  Hypothesis Hval : parameter_values (params_index_of p) params val.
  Hypothesis Hval' : parameter_values (params_index_of p) params' val'.
  Hypothesis Hnd : nondegenerate md n (params_index_of p) val (arr2 (ps_scaling ps)).
  Hypothesis Hren : renormalized_factor_units md n scale shift val val'.
  Hypothesis Hsc : forall t f, (t < n)%nat -> In f (latent_of md) -> scale t f <> 0.

  Let Hwf : wf_dicts md. Proof. apply H. Qed.
  Let Hp : process_model md = Ok p. Proof. apply H. Qed.
  Let Hn : has_n_periods md n. Proof. apply H. Qed.
  Let Hg : good_names md. Proof. apply H. Qed.
  Let inp := inputs_of ps ar.
  Let inp' := inputs_of ps' ar.
  Let nl := length (latent_of md).
  Let no := length (observed_of md).
  Let c : nat -> vec := fun t a => scale t (factor md a).
  Let d : nat -> vec := fun t a => shift t (factor md a).

  Lemma factor_latent j : (j < nl)%nat -> In (factor md j) (latent_of md).
  Proof. intros Hj. eapply nth_error_In, factor_nth, Hj. Qed.

  Lemma constant_one k t v i : nth_error (equations md n) k = Some (t, v) -> (i < length ids)%nat ->
    in_values inp k i <> None -> in_controls inp t i O = Some 1.
  Proof.
    intros Hk Hi. destruct (nth_error ids i) as [id|] eqn:Ei; [|apply nth_error_None in Ei; lia].
    assert (Ht : (t < n)%nat) by (apply (equations_period md n t v); eapply nth_error_In, Hk).
    destruct H as (Hd & _ & Har & _).
    destruct (C29_arrays_by_label 1 req md p n df ids lv ar req_spec Hd Har) as ((_ & _ & Hm) & (_ & _ & Hc) & _).
    destruct (Hm k t v i id Hk Ei) as (w & (row & Hr & Hw) & Hh).
    destruct (Hc t i id O "constant"%string Ht Ei eq_refl) as (w1 & (sh & Hs & row1 & Hr1 & Hw1) & Hh1).
    unfold inp, inputs_of, oarr2, oarr1. cbn [in_values in_controls].
    rewrite (nth_of_nth_error _ _ _ _ Hr), (nth_of_nth_error _ _ _ _ Hw).
    rewrite (nth_of_nth_error _ _ _ _ Hs), (nth_of_nth_error _ _ _ _ Hr1), (nth_of_nth_error _ _ _ _ Hw1).
    intros Hne. assert (Hnd' : ~ discarded 1 md n df lv id t) by (intros F; apply Hne; now apply Hh).
    rewrite (proj2 Hh1 Hnd'). unfold value, data_value.
    destruct (find _ (outcomes_of md)) as [fo|] eqn:Ef; [|reflexivity]. exfalso.
    apply find_some in Ef as [Hin Ef]. apply String.eqb_eq in Ef.
    apply (DataArrays.constant_not_copy (outcomes_of md)). rewrite Ef. now apply in_map.
  Qed.

  Lemma equation_renormalized i k t v : (i < length ids)%nat -> nth_error (equations md n) k = Some (t, v) ->
    renormalized_equation nan nl (S (length (controls_of md))) inp inp' c d i k t.
  Proof.
    intros Hi Hk. destruct Hren as (R1 & R2 & _ & _ & _ & R6 & R7 & _).
    assert (Hin : In (t, v) (equations md n)) by (eapply nth_error_In, Hk).
    assert (Ht : (t < n)%nat) by (apply (equations_period md n t v); exact Hin).
    pose proof (input_sd md p n df ids lv ar params ps val H Hval k t v Hk) as S1.
    pose proof (input_sd md p n df ids lv ar params' ps' val' H' Hval' k t v Hk) as S2.
    split; [|split; [|split; [reflexivity|split; [reflexivity|split; [|split]]]]].
    - unfold inp. rewrite S1. apply Hnd. apply (In_params_index md p _ Hwf Hp). constructor.
      rewrite <- (equations_keys md p n Hwf Hp Hn) in Hin. now apply (In_p_update_keys md p Hwf Hp).
    - unfold inp, inp'. now rewrite S1, S2, R7.
    - intros a Ha. now apply Hsc; [|apply factor_latent].
    - intros a Ha. unfold inp, inp'.
      rewrite (input_loading md p n df ids lv ar params ps val H Hval k t v a Hk Ha).
      rewrite (input_loading md p n df ids lv ar params' ps' val' H' Hval' k t v a Hk Ha).
      apply R1; [exact Hin|now apply factor_latent].
    - intros Hne. pose proof (constant_one k t v i Hk Hi Hne) as E1.
      unfold dot. rewrite !rsum_S_l, E1. cbn [to_number].
      rewrite (rsum_ext _ (fun j => to_number nan (in_controls inp t i (S j)) * in_control_params inp' k (S j))
                 (fun j => to_number nan (in_controls inp t i (S j)) * in_control_params inp k (S j))).
      + pose proof (input_control_param md p n df ids lv ar params ps val H Hval k t v O Hk ltac:(lia)) as P1.
        pose proof (input_control_param md p n df ids lv ar params' ps' val' H' Hval' k t v O Hk ltac:(lia)) as P2.
        fold inp in P1. fold inp' in P2. rewrite P1, P2.
        cbn [nth]. rewrite (R2 t v Hin), (sum_of_rsum ""%string).
        rewrite (rsum_ext _ (fun j => val (CLoadings, t, v, nth j (latent_of md) ""%string) * shift t (nth j (latent_of md) ""%string) / scale t (nth j (latent_of md) ""%string))
                   (fun a => in_loadings inp k a * d t a / c t a)); [fold nl; ring|].
        intros a Ha. unfold inp. rewrite (input_loading md p n df ids lv ar params ps val H Hval k t v a Hk Ha). reflexivity.
      + intros j Hj.
        pose proof (input_control_param md p n df ids lv ar params ps val H Hval k t v (S j) Hk ltac:(lia)) as P1.
        pose proof (input_control_param md p n df ids lv ar params' ps' val' H' Hval' k t v (S j) Hk ltac:(lia)) as P2.
        fold inp in P1. fold inp' in P2. rewrite P1, P2.
        cbn [nth]. rewrite R6; [reflexivity|]. now apply nth_In.
  Qed.

  Lemma initial_renormalized i : (i < length ids)%nat -> (1 <= n)%nat ->
    renormalized_beliefs (n_mixtures_of md) nl c d i 0 (initial_belief ps) (initial_belief ps').
  Proof.
    intros Hi H1. assert (Hu : NoDup (params_index_of p)) by (apply (idx_NoDup md p Hwf Hg Hp)).
    destruct (C10_initial_distribution R 0 1 ln md p n (length ids) params ps Hwf Hu Hp Hn ltac:(apply H) ltac:(apply H))
      as (_ & _ & _ & I1).
    destruct (C10_initial_distribution R 0 1 ln md p n (length ids) params' ps' Hwf Hu Hp Hn ltac:(apply H') ltac:(apply H'))
      as (_ & _ & _ & I2).
    destruct (I1 i Hi) as (st & ch & we & Hst & Hch & Hwe & _ & _ & _ & J1).
    destruct (I2 i Hi) as (st' & ch' & we' & Hst' & Hch' & Hwe' & _ & _ & _ & J2).
    destruct Hren as (_ & _ & R3 & R4 & _ & _ & _ & R8).
    split.
    - intros m Hm. destruct (J1 m Hm) as (_ & (mean & Hm1 & _ & M1) & _). destruct (J2 m Hm) as (_ & (mean' & Hm2 & _ & M2) & _).
      split; [|split].
      + intros a Ha. unfold initial_belief, moved, arr3, arr2, arr1. cbn [be_states].
        rewrite (nth_of_nth_error _ _ _ _ Hst), (nth_of_nth_error _ _ _ _ Hm1).
        rewrite (nth_of_nth_error _ _ _ _ Hst'), (nth_of_nth_error _ _ _ _ Hm2).
        destruct (M1 a _ (factor_nth md a Ha)) as (x & Hx & L1). destruct (M2 a _ (factor_nth md a Ha)) as (x' & Hx' & L2).
        rewrite (nth_of_nth_error _ _ _ _ Hx), (nth_of_nth_error _ _ _ _ Hx').
        rewrite (val_eq md p n df ids lv ar params ps val H Hval _ _ L1), (val_eq md p n df ids lv ar params' ps' val' H' Hval' _ _ L2).
        symmetry. apply R3; [exact Hm|now apply factor_latent].
      + exact (initial_nonsingular md p n df ids lv ar params ps val H Hval Hnd i m Hi Hm).
      + exists (fun _ => 1). split; [intros; now left|]. intros r k Hr Hk. unfold stretched.
        rewrite (initial_entry md p n df ids lv ar params ps val H Hval i m r k Hi Hm Hr Hk).
        rewrite (initial_entry md p n df ids lv ar params' ps' val' H' Hval' i m r k Hi Hm Hr Hk).
        destruct (r <=? k)%nat; [rewrite R4 by now apply factor_latent|]; unfold c; ring.
    - intros m Hm. destruct (J1 m Hm) as ((w & Hw & L1) & _). destruct (J2 m Hm) as ((w' & Hw' & L2) & _).
      unfold initial_belief, arr2, arr1. cbn [be_logw].
      rewrite (nth_of_nth_error _ _ _ _ Hwe), (nth_of_nth_error _ _ _ _ Hw).
      rewrite (nth_of_nth_error _ _ _ _ Hwe'), (nth_of_nth_error _ _ _ _ Hw').
      rewrite (val_eq md p n df ids lv ar params ps val H Hval _ _ L1), (val_eq md p n df ids lv ar params' ps' val' H' Hval' _ _ L2).
      now rewrite R8.
  Qed.
  Lemma shocks_renormalized t j : (t + 1 < n)%nat -> (j < nl)%nat -> in_shock_sds inp' t j = in_shock_sds inp t j * c (S t) j.
  Proof.
    intros Ht Hj. unfold inp, inp'.
    rewrite (input_shock md p n df ids lv ar params ps val H Hval t j Ht Hj).
    rewrite (input_shock md p n df ids lv ar params' ps' val' H' Hval' t j Ht Hj).
    destruct Hren as (_ & _ & _ & _ & R5 & _). apply R5. now apply factor_latent.
  Qed.
End Units.

(** The events of the filter, given that each transition is the same on the new scale. *)
Section Events.
  Variables (nan neg_inf : R) (custom : string -> dict R -> dict R -> list R -> result R).
  Hypothesis Hcustom : total_custom custom.
  Variables (md : model_dict) (p : processed) (n : nat) (df : frame R) (ids lv : list Z) (ar : arrays R)
    (params params' : list R) (ps ps' : parsed R) (val val' : label -> R) (scale shift : nat -> string -> R).
  Hypothesis H : likelihood_setting md p n df ids lv ar params ps.
  Hypothesis H' : likelihood_setting md p n df ids lv ar params' ps'.
  Hypothesis Hval : parameter_values (params_index_of p) params val.
  Hypothesis Hval' : parameter_values (params_index_of p) params' val'.
  Hypothesis Hnd : nondegenerate md n (params_index_of p) val (arr2 (ps_scaling ps)).
  Hypothesis Hren : renormalized_factor_units md n scale shift val val'.
  Hypothesis Hsc : forall t f, (t < n)%nat -> In f (latent_of md) -> scale t f <> 0.

  Let Hwf : wf_dicts md. Proof. apply H. Qed.
  Let Hp : process_model md = Ok p. Proof. apply H. Qed.
  Let Hn : has_n_periods md n. Proof. apply H. Qed.
  Let Hg : good_names md. Proof. apply H. Qed.
  Let tfunc := model_tfunc nan neg_inf custom md (p_labels p).
  Let inp := inputs_of ps ar.
  Let inp' := inputs_of ps' ar.
  Let nl := length (latent_of md).
  Let no := length (observed_of md).
  Let c : nat -> vec := fun t a => scale t (factor md a).
  Let d : nat -> vec := fun t a => shift t (factor md a).

  Definition transition_absorbed (i t : nat) : Prop :=
    forall v f, (f < nl)%nat ->
      anchored_transition (tfunc (in_coeffs inp' t)) (fun r => in_scaling inp' (t + r)%nat) (fun r => in_constants inp' (t + r)%nat)
        (all_factors nl (moved (c t) (d t) v) (fun o => to_number nan (in_observed inp t i o))) f
      = moved (c (S t)) (d (S t))
          (anchored_transition (tfunc (in_coeffs inp t)) (fun r => in_scaling inp (t + r)%nat) (fun r => in_constants inp (t + r)%nat)
             (all_factors nl v (fun o => to_number nan (in_observed inp t i o)))) f.

  Lemma all_renormalized i : (i < length ids)%nat -> (forall t, (t + 1 < n)%nat -> transition_absorbed i t) ->
    Forall (renormalized_event nan tfunc nl (S (length (controls_of md))) inp inp' c d i) (code_events 0 (purposes (p_update p))).
  Proof.
    intros Hi Habs. pose proof (all_regular nan neg_inf custom Hcustom md p n df ids lv ar params ps val H Hval Hnd) as HR.
    rewrite Forall_forall in *. intros e He. specialize (HR e He). apply code_events_at in He.
    assert (Hm : forall k t, (exists (j : nat) b, k = (0 + j)%nat /\ nth_error (purposes (p_update p)) j = Some (t, b)) ->
              renormalized_equation nan nl (S (length (controls_of md))) inp inp' c d i k t).
    { intros k t (j & b & -> & Hj). unfold purposes in Hj. rewrite nth_error_map in Hj.
      destruct (nth_error (p_update p) j) as [r|] eqn:Er; [|discriminate]. injection Hj as <- _.
      apply (equation_renormalized nan md p n df ids lv ar params params' ps ps' val val' scale shift H H' Hval Hval' Hnd Hren Hsc i j (u_period r) (u_var r) Hi).
      rewrite (equations_update md p n Hwf Hp Hn). now rewrite (map_nth_error _ _ _ Er). }
    destruct e as [k t|k t|t]; [exact (Hm k t He)|exact (Hm k t He)|].
    destruct He as (tb & Hin & E). unfold purposes in Hin. apply in_map_iff in Hin as (r & <- & Hr). cbn [fst] in E.
    pose proof (update_periods md p n df ids lv ar params ps H r Hr) as Hlt.
    assert (Ht : (t + 1 < n)%nat) by lia.
    split; [exact HR|]. split; [reflexivity|].
    split; [intros a Ha; apply Hsc; [lia|now apply factor_latent]|]. split; [intros a Ha; apply Hsc; [lia|now apply factor_latent]|].
    split; [exact (Habs t Ht)|]. intros f Hf.
    exact (shocks_renormalized md p n df ids lv ar params params' ps ps' val val' scale shift H H' Hval Hval' Hren t f Ht Hf).
  Qed.
End Events.

Section Model.
  Variables (nan neg_inf : R) (custom : string -> dict R -> dict R -> list R -> result R).
  Hypothesis Hcustom : total_custom custom.
  Variables (md : model_dict) (p : processed) (n : nat) (df : frame R) (ids lv : list Z) (ar : arrays R)
    (params params' : list R) (ps ps' : parsed R) (val val' : label -> R) (scale shift : nat -> string -> R).
  Hypothesis H : likelihood_setting md p n df ids lv ar params ps.
  Hypothesis H' : likelihood_setting md p n df ids lv ar params' ps'.
  Hypothesis Hval : parameter_values (params_index_of p) params val.
  Hypothesis Hval' : parameter_values (params_index_of p) params' val'.
  Hypothesis Hclean : clean_anchoring md.
  Hypothesis Hord : anchored_in_order md.
  Hypothesis Hnd : nondegenerate md n (params_index_of p) val (arr2 (ps_scaling ps)).
  Hypothesis Hren : renormalized md n scale shift val val'.
  Hypothesis Hcov : anchoring_covers md n scale shift val.

  Let Hwf : wf_dicts md. Proof. apply H. Qed.
  Let Hp : process_model md = Ok p. Proof. apply H. Qed.
  Let Hn : has_n_periods md n. Proof. apply H. Qed.
  Let Hg : good_names md. Proof. apply H. Qed.
  Let tfunc := model_tfunc nan neg_inf custom md (p_labels p).
  Let inp := inputs_of ps ar.
  Let inp' := inputs_of ps' ar.
  Let nl := length (latent_of md).
  Let no := length (observed_of md).
  Let c : nat -> vec := fun t a => scale t (factor md a).
  Let d : nat -> vec := fun t a => shift t (factor md a).

  (** Anchored values do not change. *)
  Lemma anchors_renormalized t j : (t < n)%nat -> (j < nl)%nat ->
    (forall y, (c t j * y + d t j) * in_scaling inp' t j + in_constants inp' t j
               = y * in_scaling inp t j + in_constants inp t j) /\
    (forall y, (y - in_constants inp' t j) / in_scaling inp' t j
               = c t j * ((y - in_constants inp t j) / in_scaling inp t j) + d t j).
  Proof.
    intros Ht Hj. pose proof (factor_nth md j Hj) as Hf. set (f := factor md j) in *.
    assert (Hf' : nth_error (latent_of md ++ observed_of md) j = Some f) by (rewrite nth_error_app1; [exact Hf|exact Hj]).
    assert (Hfl : In f (latent_of md)) by (eapply nth_error_In, Hf).
    destruct (anchor_inputs md p n df ids lv ar params ps val H Hval Hclean Hord t j f Ht Hf') as (A1 & A2 & A3 & A4).
    destruct (anchor_inputs md p n df ids lv ar params' ps' val' H' Hval' Hclean Hord t j f Ht Hf') as (B1 & B2 & B3 & B4).
    destruct Hren as [(R1 & R2 & _) _]. destruct Hcov as (C1 & C2 & C3 & C4).
    fold inp in A1, A2, A3, A4. fold inp' in B1, B2, B3, B4. unfold c, d. fold f.
    destruct (anchored_or md f) as [(o & Ho)|No].
    - rewrite (A1 o Ho), (B1 o Ho). pose proof (anchoring_equation md p n df ids lv ar params ps H t f o Ht Ho) as Heq.
      pose proof (C4 t f o Ht Ho) as L0. pose proof (C1 t f Ht Hfl) as Cf.
      rewrite (R1 t _ f Heq Hfl). destruct (ignores_constant md) eqn:Ig.
      + rewrite (A4 (or_intror eq_refl)), (B4 (or_intror eq_refl)), (C3 eq_refl t f Ht Hfl). split; intros y; field; auto.
      + rewrite (A2 o Ho eq_refl), (B2 o Ho eq_refl), (R2 t _ Heq), (sum_of_single _ f).
        * split; intros y; field; auto.
        * destruct Hg as [D _]. now apply NoDup_app_l in D.
        * exact Hfl.
        * intros g Hgf. rewrite (other_loading md p n df ids lv ar params ps val H Hval Hclean t f o g Ht Ho Hgf).
          unfold Rdiv. ring.
    - destruct (C2 t f Ht Hfl No) as [-> ->].
      rewrite (A3 No), (B3 No), (A4 (or_introl No)), (B4 (or_introl No)). split; intros y; field.
  Qed.

  Lemma coefficients_same : ps_transition ps' = ps_transition ps.
  Proof.
    assert (Hu : NoDup (params_index_of p)) by (apply (idx_NoDup md p Hwf Hg Hp)).
    destruct (parse_for_inv R 0 1 ln md p n (length ids) params Hwf Hu Hp Hn ltac:(apply H) ps ltac:(apply H)) as (s & k & _ & _ & ->).
    destruct (parse_for_inv R 0 1 ln md p n (length ids) params' Hwf Hu Hp Hn ltac:(apply H') ps' ltac:(apply H')) as (s' & k' & _ & _ & ->).
    unfold the_parsed. cbn [ps_transition].
    assert (V : forall q v lb, length q = length (params_index_of p) -> parameter_values (params_index_of p) q v ->
              In lb (params_index_of p) -> val_of 0 (params_index_of p) q lb = v lb).
    { intros q v lb Hq Hv Hlb. pose proof (labelled_map (params_index_of p) (val_of 0 (params_index_of p) q) lb Hlb) as L.
      rewrite <- (val_of_map 0 (params_index_of p) q Hu Hq) in L. exact (labelled_fun _ _ _ _ _ Hu L (proj1 Hv lb Hlb)). }
    apply map_ext_in. intros [f fs] Hin. cbn [fst snd]. f_equal. apply map_ext_in. intros t Ht. apply in_seq in Ht.
    apply map_ext_in. intros name Hname.
    assert (Hlb : In (CTransition, t, f, name) (params_index_of p)).
    { apply (In_params_index md p _ Hwf Hp). apply (par_transition md t n f fs); [exact Hn|lia|exact Hin|exact Hname]. }
    rewrite (V params val _ ltac:(apply H) Hval Hlb), (V params' val' _ ltac:(apply H') Hval' Hlb). apply Hren.
  Qed.

  Lemma transition_renormalized i t : (t + 1 < n)%nat ->
    transition_absorbed nan neg_inf custom md p ar ps ps' scale shift i t.
  Proof.
    intros Ht v f Hf. fold nl inp inp' tfunc.
    assert (Eco : in_coeffs inp' t = in_coeffs inp t) by (unfold inp, inp', inputs_of; cbn [in_coeffs]; now rewrite coefficients_same).
    rewrite Eco. unfold anchored_transition. rewrite Nat.add_0_r, Nat.add_1_r.
    rewrite (proj2 (anchors_renormalized (S t) f ltac:(lia) Hf)). unfold moved at 2. unfold c, d. do 4 f_equal.
    pose proof (model_tfunc_local nan neg_inf custom md p Hp (in_coeffs inp t)) as Hloc.
    destruct (p_dims_eq md p Hp) as (Dl & Do & _). rewrite Dl, Do in Hloc.
    apply Hloc; [|exact Hf]. intros g Hgl. unfold all_factors.
    destruct (Nat.ltb_spec g nl) as [L|G].
    - unfold moved. apply (anchors_renormalized t g ltac:(lia) L).
    - destruct (nth_error (observed_of md) (g - nl)) as [x|] eqn:Eg;
        [|apply nth_error_None in Eg; unfold nl in *; lia].
      assert (Hj : nth_error (latent_of md ++ observed_of md) g = Some x) by (rewrite nth_error_app2; assumption).
      pose proof (observed_not_anchored md p n df ids lv ar params ps H Hclean _ _ Eg) as No.
      destruct (anchor_inputs md p n df ids lv ar params ps val H Hval Hclean Hord t g x ltac:(lia) Hj) as (_ & _ & A3 & A4).
      destruct (anchor_inputs md p n df ids lv ar params' ps' val' H' Hval' Hclean Hord t g x ltac:(lia) Hj) as (_ & _ & B3 & B4).
      unfold inp, inp'. rewrite (A3 No), (B3 No), (A4 (or_introl No)), (B4 (or_introl No)). reflexivity.
  Qed.
End Model.

Lemma rescaled_outputs md n o n_obs scale shift b b' debug out out' recs recs' :
  reports o n_obs recs b debug out -> reports o n_obs recs' b' debug out' ->
  length recs = length (equations md n) ->
  (forall i, (i < n_obs)%nat ->
     renormalized_beliefs (n_mixtures_of md) (length (latent_of md)) (fun t a => scale t (factor md a)) (fun t a => shift t (factor md a)) i 0 b b' /\
     Forall2 (renormalized_record (n_mixtures_of md) (length (latent_of md)) (fun t a => scale t (factor md a)) (fun t a => shift t (factor md a)) i)
       (combine (map fst (equations md n)) recs) recs') ->
  rescaled_output md n n_obs scale shift out out'.
Proof.
  intros (V & C & N & D) (V' & C' & N' & D') Hl F.
  assert (E : forall i, (i < n_obs)%nat -> contribution_of o recs' i = contribution_of o recs i).
  { intros i Hi. destruct (F i Hi) as [_ Fi]. unfold contribution_of.
    assert (Hl' : length (map fst (equations md n)) = length recs) by (rewrite map_length; congruence).
    clear -Fi Hl'. revert Fi Hl'. generalize (map fst (equations md n)) recs recs'. clear.
    induction l as [|t l IH]; intros [|r recs] recs' Fi Hl'; try discriminate; inversion_clear Fi as [|? r' ? l' [Hr _] Fi']; [reflexivity|].
    cbn [map sum_list fold_right]. cbn [snd] in Hr. rewrite Hr. f_equal. apply IH; [exact Fi'|now injection Hl']. }
  split; [|split].
  - rewrite V, V'. now apply rsum_ext.
  - intros i Hi. rewrite C, C'. now apply E.
  - destruct debug.
    + destruct (D eq_refl) as (d & -> & I1 & I2 & K). destruct (D' eq_refl) as (d' & -> & I1' & I2' & K').
      intros i k t v Hi Hk. destruct (F i Hi) as [[B1 B2] Fi].
      assert (Hlt : (k < length recs)%nat) by (rewrite Hl; apply nth_error_Some; congruence).
      destruct (nth_error recs k) as [r|] eqn:Ek; [|apply nth_error_None in Ek; lia].
      assert (Ec : nth_error (combine (map fst (equations md n)) recs) k = Some (t, r)).
      { assert (Et : nth_error (map fst (equations md n)) k = Some t) by (rewrite (map_nth_error _ _ _ Hk); reflexivity).
        clear -Et Ek. revert k Et Ek. generalize (map fst (equations md n)) recs. clear. induction l as [|a l IH]; intros [|b m] [|k] Et Ek; try discriminate.
        - injection Et as ->. injection Ek as ->. reflexivity.
        - now apply IH. }
      assert (exists r', nth_error recs' k = Some r' /\
         renormalized_record (n_mixtures_of md) (length (latent_of md)) (fun t a => scale t (factor md a)) (fun t a => shift t (factor md a)) i (t, r) r') as (r' & Ek' & A & B).
      { clear -Fi Ec. revert k Ec. induction Fi as [|a a' l l' Ha _ IH]; intros [|k] Ec; try discriminate.
        - injection Ec as ->. exists a'. auto.
        - now apply IH. }
      destruct (K k r Ek) as (K1 & K2 & K3 & K4 & K5). destruct (K' k r' Ek') as (K1' & K2' & K3' & K4' & K5').
      rewrite K1, K1', K2, K2', K3, K3', K4, K4', K5, K5', I1, I1', I2, I2'. cbn [fst snd] in A, B.
      split; [now symmetry|]. intros m Hm. destruct (B m Hm) as (Q1 & Q2 & Q3 & Q4). destruct (B1 m Hm) as (P1 & _ & _).
      split; [now symmetry|]. split; [now symmetry|]. split; [now symmetry|]. split; [symmetry; now apply B2|].
      intros j f Hj. assert (Hlj : (j < length (latent_of md))%nat) by (apply nth_error_Some; congruence).
      assert (factor md j = f) as Ef by (pose proof (factor_nth md j Hlj); congruence).
      pose proof (Q1 j Hlj) as S1. pose proof (P1 j Hlj) as S2. unfold moved in S1, S2. rewrite Ef in S1, S2. now rewrite S1, S2.
    + now rewrite (N eq_refl), (N' eq_refl).
Qed.

(** Parameters that describe the same model on another scale of the factors, where each
    transition function has been adapted to the new scale, give the same likelihood. *)
Lemma likelihood_renormalized :
  forall qr nan neg_inf custom md p n df ids lv ar params params' ps ps' val val' scale shift debug,
    correct_qr qr -> total_custom custom ->
    likelihood_setting md p n df ids lv ar params ps -> parameter_values (params_index_of p) params val ->
    likelihood_setting md p n df ids lv ar params' ps' -> parameter_values (params_index_of p) params' val' ->
    every_period_measured md n ->
    nondegenerate md n (params_index_of p) val (arr2 (ps_scaling ps)) ->
    0 <= Q2R (o_sigma_points_scale (p_options p)) ->
    renormalized_factor_units md n scale shift val val' ->
    (forall t f, (t < n)%nat -> In f (latent_of md) -> scale t f <> 0) ->
    (forall i t, (i < length ids)%nat -> (t + 1 < n)%nat -> transition_absorbed nan neg_inf custom md p ar ps ps' scale shift i t) ->
    let tfunc := model_tfunc nan neg_inf custom md (p_labels p) in
    match log_likelihood qr nan tfunc p ar debug params, log_likelihood qr nan tfunc p ar debug params' with
    | Ok out, Ok out' => rescaled_output md n (length ids) scale shift out out'
    | Err e, Err e' => e = e'
    | _, _ => False
    end.
Proof.
  intros qr nan neg_inf custom md p n df ids lv ar params params' ps ps' val val' scale shift debug
    Hqr Hcustom H Hval H' Hval' Hev Hnd Hkappa Hren Hsc Habs tfunc.
  assert (Hwf : wf_dicts md) by apply H. assert (Hp : process_model md = Ok p) by apply H.
  assert (Hn : has_n_periods md n) by apply H.
  assert (Hlu : length (p_update p) = length (equations md n)).
  { rewrite (equations_update md p n Hwf Hp Hn). now rewrite map_length. }
  assert (H1 : (1 <= n)%nat).
  { destruct (parse_for_needs R 0 1 ln md p n (length ids) params Hp Hn ltac:(apply H) ps) as [H2 _]; [apply H|lia]. }
  destruct (shapes_fit (length ids) (n_mixtures (p_dims p)) (n_observed (p_dims p))) eqn:Hfit.
  - destruct (likelihood_events qr nan tfunc md p n df ids lv ar params ps debug H Hfit)
      as (recs & out & Er & Hl & -> & Hr).
    destruct (likelihood_events qr nan tfunc md p n df ids lv ar params' ps' debug H' Hfit)
      as (recs' & out' & Er' & Hl' & -> & Hr').
    apply (rescaled_outputs _ _ _ _ _ _ _ _ _ _ _ _ _ Hr Hr'); [congruence|].
    intros i Hi. pose proof (initial_renormalized md p n df ids lv ar params params' ps ps' val val' scale shift H H' Hval Hval'
      Hnd Hren i Hi H1) as HI. split; [exact HI|].
    unfold run_model in Er, Er'.
    destruct (p_dims_eq md p Hp) as (Dl & Do & Dc & Dm & _).
    assert (Hnm : (1 <= n_mixtures (p_dims p))%nat) by (apply (parse_mixtures p params (length ids) ps); apply H).
    pose proof (model_tfunc_local nan neg_inf custom md p Hp) as Hloc.
    rewrite Dl, Do, Dc, Dm in *.
    replace (map fst (equations md n)) with (periods_of_events (code_events 0 (purposes (p_update p)))).
    2:{ rewrite code_periods, (equations_update md p n Hwf Hp Hn). unfold purposes. now rewrite !map_map. }
    refine (run_renorm qr Hqr nan tfunc (length ids) _ _ _ _ _ (inputs_of ps ar) (inputs_of ps' ar)
              (fun t a => scale t (factor md a)) (fun t a => shift t (factor md a)) i Hnm Hkappa _ _ Hloc _ 0 _ _ _ _ _ _ HI Er Er').
    + assert (0 < INR (length (latent_of md))).
      { apply lt_0_INR. destruct Hn as [(f & fs & Hin & _) _]. unfold latent_of. rewrite map_length.
        destruct (md_factors md); [destruct Hin|cbn; lia]. }
      lra.
    + apply shapes_fit_spec in Hfit as [Ff|Ff]; [lia|exact Ff].
    + exact (all_renormalized nan neg_inf custom Hcustom md p n df ids lv ar params params' ps ps' val val' scale shift
               H H' Hval Hval' Hnd Hren Hsc i Hi (fun t => Habs i t Hi)).
    + rewrite (schedule_code md p n Hwf Hp Hn Hev). apply schedule_timed.
  - assert (Hne : p_update p <> []).
    { destruct (Hev O ltac:(lia)) as (v & Hv). intros E. rewrite E in Hlu.
      destruct (equations md n); [destruct Hv|discriminate]. }
    rewrite (likelihood_misfits qr nan tfunc md p n df ids lv ar params ps debug H Hfit Hne).
    rewrite (likelihood_misfits qr nan tfunc md p n df ids lv ar params' ps' debug H' Hfit Hne).
    reflexivity.
Qed.

(** The factors have no natural scale and location. If a factor is anchored, it does not
    matter how its scale and location are normalized, period by period: parameters that
    describe the same model on another scale give the same likelihood with the *same*
    parameters of the transition functions, whatever these functions are; the estimated
    factors are those of the original scale, rescaled, and their anchored values
    are the same. *)
Theorem C92_anchoring_removes_the_normalization :
  forall qr nan neg_inf custom md p n df ids lv ar params params' ps ps' val val' scale shift debug,
    correct_qr qr -> total_custom custom ->
    likelihood_setting md p n df ids lv ar params ps -> parameter_values (params_index_of p) params val ->
    likelihood_setting md p n df ids lv ar params' ps' -> parameter_values (params_index_of p) params' val' ->
    clean_anchoring md -> anchored_in_order md -> every_period_measured md n ->
    nondegenerate md n (params_index_of p) val (arr2 (ps_scaling ps)) ->
    0 <= Q2R (o_sigma_points_scale (p_options p)) ->
    renormalized md n scale shift val val' -> anchoring_covers md n scale shift val ->
    let tfunc := model_tfunc nan neg_inf custom md (p_labels p) in
    match log_likelihood qr nan tfunc p ar debug params, log_likelihood qr nan tfunc p ar debug params' with
    | Ok out, Ok out' => rescaled_output md n (length ids) scale shift out out'
    | Err e, Err e' => e = e'
    | _, _ => False
    end /\
    forall t j f y, (t < n)%nat -> nth_error (latent_of md) j = Some f ->
      (scale t f * y + shift t f) * arr2 (ps_scaling ps') t j + arr2 (ps_constants ps') t j
      = y * arr2 (ps_scaling ps) t j + arr2 (ps_constants ps) t j.
Proof.
  intros qr nan neg_inf custom md p n df ids lv ar params params' ps ps' val val' scale shift debug
    Hqr Hcustom H Hval H' Hval' Hclean Hord Hev Hnd Hkappa Hren Hcov tfunc.
  assert (Hwf : wf_dicts md) by apply H. assert (Hp : process_model md = Ok p) by apply H.
  assert (Hn : has_n_periods md n) by apply H.
  split.
  2:{ intros t j f y Ht Hj. assert (Hlj : (j < length (latent_of md))%nat) by (apply nth_error_Some; congruence).
      assert (factor md j = f) as Ef by (pose proof (factor_nth md j Hlj); congruence).
      pose proof (proj1 (anchors_renormalized md p n df ids lv ar params params' ps ps' val val' scale shift H H' Hval Hval'
                    Hclean Hord Hren Hcov t j Ht Hlj) y) as A. rewrite <- Ef. exact A. }
  exact (likelihood_renormalized qr nan neg_inf custom md p n df ids lv ar params params' ps ps' val val' scale shift debug
    Hqr Hcustom H Hval H' Hval' Hev Hnd Hkappa (proj1 Hren) (proj1 Hcov)
    (fun i t _ Ht => transition_renormalized nan neg_inf custom md p n df ids lv ar params params' ps ps' val val' scale shift
       H H' Hval Hval' Hclean Hord Hnd Hren Hcov i t Ht)).
Qed.
Print Assumptions C92_anchoring_removes_the_normalization.

(** The model of C91, with both factors anchored, and other parameters for it: the
    factors of period [t] are multiplied by [t + 2] and shifted by [t + 1]. *)
Definition new_scale (t : nat) (f : string) : R := INR (t + 2).
Definition new_shift (t : nat) (f : string) : R := INR (t + 1).

Definition rescaled_value (md : model_dict) (val : label -> R) (lb : label) : R :=
  match lb with
  | (CLoadings, t, _, f) => val lb / new_scale t f
  | (CControls, t, v, c) =>
      if String.eqb c "constant"
      then val lb - sum_of (latent_of md) (fun f => val (CLoadings, t, v, f) * new_shift t f / new_scale t f)
      else val lb
  | (CInitStates, t, _, f) => new_scale t f * val lb + new_shift t f
  | (CInitChol, t, _, f) => val lb * new_scale t f
  | (CShockSds, t, f, _) => val lb * new_scale (S t) f
  | _ => val lb
  end.

Lemma values_ok idx v : NoDup idx -> parameter_values idx (map v idx) (val_of 0 idx (map v idx)).
Proof.
  intros Hnd. split.
  - intros lb Hlb. pose proof (labelled_map idx (val_of 0 idx (map v idx)) lb Hlb) as L.
    rewrite <- (val_of_map 0 idx (map v idx) Hnd (map_length _ _)) in L. exact L.
  - intros lb. clear. generalize (map v idx). induction idx as [|a idx IH]; intros [|x l] Hlb; try reflexivity.
    cbn [val_of]. destruct (label_eq_dec lb a) as [->|_]; [destruct Hlb; now left|].
    apply IH. intros F. apply Hlb. now right.
Qed.

Lemma rescaled_ok md p n val : wf_dicts md -> process_model md = Ok p -> has_n_periods md n -> NoDup (params_index_of p) ->
  ~ In "constant"%string (controls_of md) -> (1 <= n)%nat ->
  (forall lb, ~ In lb (params_index_of p) -> val lb = 0) ->
  renormalized md n new_scale new_shift val
    (val_of 0 (params_index_of p) (map (rescaled_value md val) (params_index_of p))).
Proof.
  intros Hwf Hp Hn Hnd Hcst H1 Hz. set (idx := params_index_of p). set (val' := val_of 0 idx (map (rescaled_value md val) idx)).
  assert (V : forall lb, In lb idx -> val' lb = rescaled_value md val lb) by (intros lb; apply val_of_values, Hnd).
  assert (Z : forall lb, ~ In lb idx -> val' lb = 0) by (apply (values_ok idx), Hnd).
  assert (S0 : forall t f, new_scale t f <> 0) by (intros t f; apply not_0_INR; lia).
  assert (D : forall lb, {In lb idx} + {~ In lb idx}) by (intros lb; apply in_dec, label_eq_dec).
  assert (Q : forall lb c, (In lb idx -> rescaled_value md val lb = val lb * c) -> val' lb = val lb * c).
  { intros lb c E. destruct (D lb) as [I|N]; [now rewrite V, E|]. rewrite (Z _ N), (Hz _ N). ring. }
  split; [split; [|split; [|split; [|split; [|split; [|split; [|split]]]]]]|].
  - intros t v f _ _. apply Q. reflexivity.
  - intros t v Hin. apply V. apply (In_params_index md p _ Hwf Hp). constructor; [|now left].
    rewrite <- (equations_keys md p n Hwf Hp Hn) in Hin. now apply (In_p_update_keys md p Hwf Hp).
  - intros e f He Hf. apply V. apply (In_params_index md p _ Hwf Hp). now constructor.
  - intros e f g _ _. apply Q. reflexivity.
  - intros t f _. apply Q. reflexivity.
  - intros t v c Hc. rewrite (Q _ 1); [ring|]. intros _. cbn [rescaled_value].
    destruct (String.eqb_spec c "constant") as [->|_]; [contradiction|ring].
  - intros t v. rewrite (Q _ 1); [ring|]. intros _. cbn. ring.
  - intros e. rewrite (Q _ 1); [ring|]. intros _. cbn. ring.
  - intros t f name. rewrite (Q _ 1); [ring|]. intros _. cbn. ring.
Qed.

Example C92_nonvacuous : exists ar params' ps ps' val val',
  correct_qr gram_schmidt /\ total_custom (fun _ _ _ _ => Ok 0) /\
  likelihood_setting kept_model kept_p 3 (real_frame ex_df) ex_ids ex_lv ar kept_params ps /\
  parameter_values (params_index_of kept_p) kept_params val /\
  likelihood_setting kept_model kept_p 3 (real_frame ex_df) ex_ids ex_lv ar params' ps' /\
  parameter_values (params_index_of kept_p) params' val' /\
  clean_anchoring kept_model /\ anchored_in_order kept_model /\ every_period_measured kept_model 3 /\
  nondegenerate kept_model 3 (params_index_of kept_p) val (arr2 (ps_scaling ps)) /\
  0 <= Q2R (o_sigma_points_scale (p_options kept_p)) /\
  renormalized kept_model 3 new_scale new_shift val val' /\ anchoring_covers kept_model 3 new_scale new_shift val /\
  map (fun fa => fs_transition (snd fa)) (md_factors kept_model) = [TStr "translog"; TStr "constant"] /\
  new_scale 1 "cog" = 3 /\ new_shift 1 "cog" = 2.
Proof.
  destruct C91_nonvacuous as (ar & ps & val & Q1 & _ & Q3 & H & Hval & Hnd & Hk & _ & _ & Ht).
  assert (Hu : NoDup (params_index_of kept_p)) by (apply (idx_NoDup kept_model kept_p); [apply kept_setting|exact kept_good_names|exact kept_model_accepted]).
  set (params' := map (rescaled_value kept_model val) (params_index_of kept_p)).
  assert (Hl : length params' = length (params_index_of kept_p)) by apply map_length.
  assert (exists ps', parse_for 0 1 ln kept_p params' (length ex_ids) = Ok ps') as [ps' Hps'].
  { apply (C09_parsing_succeeds R 0 1 ln kept_model kept_p 3 (length ex_ids) params' (proj1 kept_setting) Hu kept_model_accepted
      (proj1 (proj2 (proj2 kept_setting))) Hl kept_clean); [lia|apply Nat.leb_le; reflexivity]. }
  exists ar, params', ps, ps', val, (val_of 0 (params_index_of kept_p) params').
  split; [exact Q1|]. split; [exact Q3|]. split; [exact H|]. split; [exact Hval|].
  split. { destruct H as (A1 & A2 & A3 & _). split; [exact A1|]. split; [exact A2|]. split; [exact A3|]. split; [exact Hl|exact Hps']. }
  split; [exact (values_ok _ _ Hu)|]. split; [exact kept_clean|]. split; [exact kept_in_order|].
  split. { intros t Ht'. exists "a"%string. destruct t as [|[|[|t]]]; [vm_compute; tauto..|lia]. }
  split; [exact Hnd|]. split; [exact Hk|].
  split. { apply (rescaled_ok kept_model kept_p 3 val (proj1 kept_setting) kept_model_accepted (proj1 (proj2 (proj2 kept_setting))) Hu);
             [apply kept_good_names|lia|exact (proj2 Hval)]. }
  split; [|split; [exact Ht|unfold new_scale, new_shift; cbn; split; ring]].
  split; [intros t f _ _; apply not_0_INR; lia|]. split.
  - intros t f _ Hf No. exfalso. assert (Hf' : In f ["cog"; "soc"]%string) by exact Hf.
    assert (exists o, In (f, o) (outcomes_of kept_model)) as [o Ho].
    { destruct Hf' as [<-|[<-|[]]]; [exists "Q1"%string; now left|exists "Q2"%string; right; now left]. }
    apply (No o). exact (proj2 (anchored_outcomes kept_model f o) Ho).
  - split; [intros E; discriminate E|]. intros t f o Ht' Ho.
    assert (Hin : In (CLoadings, t, copy_name (f, o), f) (params_index_of kept_p)).
    { refine (proj2 (In_params_index kept_model kept_p _ (proj1 kept_setting) kept_model_accepted) _).
      constructor; [|exact (proj1 kept_clean f o (proj1 (anchored_outcomes kept_model f o) Ho))].
      right. split; [exists 3%nat; split; [exact (proj1 (proj2 (proj2 kept_setting)))|exact Ht']|]. exists o. split; [exact Ho|reflexivity]. }
    assert (E : val (CLoadings, t, copy_name (f, o), f) = 1); [|rewrite E; lra].
    exact (labelled_fun _ _ _ _ _ Hu (proj1 Hval _ Hin) (labelled_map (params_index_of kept_p) kept_value _ Hin)).
Qed.
