(** The likelihood in other units (C103). *)
Require Import Reals Qreals Lra Psatz String Arith ZArith Bool FunctionalExtensionality List Lia.
From Verif Require Import PyBase ListFacts ModelSpec ProcessModel CheckModel SpecModel ProcessModelFacts
  SpecParse SpecIndex IndexFacts SpecFacts ParamsIndex ParseParams ParseFacts AnchorFacts PropsParse ProcessData SpecData DataArrays DataFacts PropsData
  RSum Kalman SpecKalman KalmanFacts PropsKalman Clipping Likelihood SpecLikelihood ScheduleFacts LikelihoodRun PropsFiltered SpecModelDensity
  LikelihoodFacts LikelihoodLocal ExampleModels PropsSpec PropsLikelihood QRWitness QRSigns PropsNumerics Renormalization PropsRenormalization
  TransitionFunctions SpecTransition TransitionFacts PropsTransition SpecStateSpace ModelDensityFacts
  ModelInputs Runs Related PropsPrefix PropsControls PropsBayes ParamsVec SpecUnits KalmanOrder Units.
Import ListNotations.
Open Scope R_scope.

(** ** Runs *)

Fixpoint event_numbers (evs : list event) : list nat :=
  match evs with
  | [] => []
  | Measure k _ :: evs' | Anchor k _ :: evs' => k :: event_numbers evs'
  | Transition _ :: evs' => event_numbers evs'
  end.

Lemma code_numbers l : forall k, event_numbers (code_events k l) = seq k (length l).
Proof.
  induction l as [|tb l IH]; intros k; [reflexivity|]. cbn [code_events length seq].
  assert (E : forall x, event_numbers (ev k tb :: x) = k :: event_numbers x).
  { intros x. unfold ev. now destruct (snd tb). }
  rewrite E. f_equal. destruct l as [|tb' l]; [exact (IH (S k))|].
  destruct (fst tb' =? S (fst tb))%nat; exact (IH (S k)).
Qed.

Section Runs.
  Variable qr : qr_function.
  Hypothesis Hqr : correct_qr qr.
  Variable nan : R.
  Variable tfunc : dict (list R) -> vec -> vec.
  Variables (n_obs nm n no nc : nat) (kappa : R) (inp inp' : inputs) (a b : nat -> R) (i : nat).
  Hypothesis Hnm : (1 <= nm)%nat.
  Hypothesis Hkappa : 0 <= kappa.
  Hypothesis Hpos : 0 < INR n + kappa.
  Hypothesis Hshape : no = O \/ nm = 1%nat.
  Hypothesis Htf : forall c, local_transition n (n + no) (tfunc c).

  Definition units_equation (k t : nat) : Prop :=
    b k <> 0 /\ (forall j, (j < n)%nat -> in_loadings inp' k j = b k * in_loadings inp k j) /\
    in_sd inp' k = Rabs (b k) * in_sd inp k /\
    in_values inp' k i = option_map (fun z => b k * z + a k) (in_values inp k i) /\
    (in_values inp k i <> None ->
     dot nc (fun c => to_number nan (in_controls inp' t i c)) (in_control_params inp' k)
     = b k * dot nc (fun c => to_number nan (in_controls inp t i c)) (in_control_params inp k) + a k).

  Definition units_event (e : event) : Prop :=
    regular_event tfunc n inp e /\
    match e with
    | Measure k t | Anchor k t => units_equation k t
    | Transition t => transition_agrees tfunc tfunc inp inp' t
    end.

  Definition units_record (k : nat) (r r' : record) : Prop :=
    re_contribution r' i = re_contribution r i - (if isfinite (in_values inp k i) then ln (Rabs (b k)) else 0) /\
    (in_values inp k i = None -> re_contribution r i = 0) /\
    forall m, (m < nm)%nat ->
      veq n (re_states r i m) (re_states r' i m) /\ re_logw r i m = re_logw r' i m /\
      re_residuals r' i m = option_map (Rmult (b k)) (re_residuals r i m) /\
      re_residual_sds r' i m = option_map (Rmult (Rabs (b k))) (re_residual_sds r i m).

  Lemma update_units an k t x x' : in_sd inp k <> 0 -> units_equation k t -> signed_beliefs nm n i x x' ->
    signed_beliefs nm n i (fst (update_event qr nan nm n nc inp an k t x)) (fst (update_event qr nan nm n nc inp' an k t x')) /\
    units_record k (snd (update_event qr nan nm n nc inp an k t x)) (snd (update_event qr nan nm n nc inp' an k t x')).
  Proof.
    intros Hsd (Hb & Hh & Hsd' & Hm & Ho) [Hs Hw]. unfold update_event. cbn [fst snd].
    pose proof (units_states qr Hqr nan nm n nc i _ _ _ _ (in_loadings inp k) (in_loadings inp' k) (in_control_params inp k) (in_control_params inp' k)
      (in_sd inp k) (in_sd inp' k) (a k) (b k) (in_values inp k) (in_values inp' k) (in_controls inp t) (in_controls inp' t) (be_logw x) (be_logw x')
      Hsd Hb Hs Hh Hsd' Hm Ho) as U.
    pose proof (units_loglikes qr Hqr nan nm n nc i _ _ _ _ (in_loadings inp k) (in_loadings inp' k) (in_control_params inp k) (in_control_params inp' k)
      (in_sd inp k) (in_sd inp' k) (a k) (b k) (in_values inp k) (in_values inp' k) (in_controls inp t) (in_controls inp' t) (be_logw x) (be_logw x')
      Hsd Hb Hnm Hs Hw Hh Hsd' Hm Ho) as L.
    pose proof (units_rest qr Hqr nan nm n nc i _ _ _ _ (in_loadings inp k) (in_loadings inp' k) (in_control_params inp k) (in_control_params inp' k)
      (in_sd inp k) (in_sd inp' k) (a k) (b k) (in_values inp k) (in_values inp' k) (in_controls inp t) (in_controls inp' t) (be_logw x) (be_logw x')
      Hsd Hb Hnm Hs Hw Hh Hsd' Hm Ho) as Rs.
    unfold signed_beliefs, units_record.
    cbn [be_states be_chols be_logw re_contribution re_states re_logw re_residuals re_residual_sds].
    split; [split|split; [exact L|split]].
    - destruct an; assumption.
    - intros m Hlt. symmetry. now apply Rs.
    - intros E. now destruct (update_missing_individual qr nan nm n nc (be_states x) (be_chols x) (in_loadings inp k) (in_control_params inp k)
        (in_sd inp k) (in_values inp k) (in_controls inp t) (be_logw x) i E) as (_ & _ & _ & -> & _).
    - intros m Hlt. destruct (Rs m Hlt) as (R1 & R2 & R3). split; [|auto].
      destruct an; [now apply Hs|now apply U].
  Qed.

  Lemma run_units evs : forall x x' recs recs', Forall units_event evs -> signed_beliefs nm n i x x' ->
    run qr nan tfunc n_obs nm n no nc kappa inp evs x = Ok recs ->
    run qr nan tfunc n_obs nm n no nc kappa inp' evs x' = Ok recs' ->
    forall j k r r', nth_error (event_numbers evs) j = Some k -> nth_error recs j = Some r -> nth_error recs' j = Some r' ->
      units_record k r r'.
  Proof.
    induction evs as [|e evs IH]; intros x x' recs recs' HF Hb E E' j k r r' Hk Hr Hr'.
    - destruct j; discriminate.
    - inversion HF as [|? ? [He Hu] HF']; subst. destruct e as [k0 t|k0 t|t]; cbn [run event_numbers] in E, E', Hk.
      + apply rbind_ok in E as (y & Ey & E); apply rbind_ok in E' as (y' & Ey' & E').
        injection E as <-. injection E' as <-.
        destruct (update_units false k0 t x x' He Hu Hb) as [A B]. destruct j as [|j]; cbn [nth_error] in *.
        * injection Hk as <-. injection Hr as <-. injection Hr' as <-. exact B.
        * eapply IH; eauto.
      + apply rbind_ok in E as (y & Ey & E); apply rbind_ok in E' as (y' & Ey' & E').
        injection E as <-. injection E' as <-.
        destruct (update_units true k0 t x x' He Hu Hb) as [A B]. destruct j as [|j]; cbn [nth_error] in *.
        * injection Hk as <-. injection Hr as <-. injection Hr' as <-. exact B.
        * eapply IH; eauto.
      + rewrite <- (transition_event_agrees qr nan tfunc tfunc n_obs nm n no kappa inp inp' t x' Hu) in E'.
        apply rbind_ok in E as (y & Ey & E); apply rbind_ok in E' as (y' & Ey' & E').
        refine (IH y y' recs recs' HF' _ E E' j k r r' Hk Hr Hr'). destruct Hb as [Hs Hw]. unfold transition_event in Ey, Ey'.
        apply rbind_ok in Ey as (z & Ez & Eq). injection Eq as <-. apply rbind_ok in Ey' as (z' & Ez' & Eq). injection Eq as <-.
        split; [|exact Hw]. cbn [be_states be_chols].
        exact (predict_signed qr qr Hqr Hqr n_obs nm n no i kappa Hkappa Hpos Hshape _ _ _ _ Hs _ _ _ _ _
                 (Htf _) He _ _ Ez Ez').
  Qed.
End Runs.

(** ** Models *)

Lemma sum_converted (X V s h : string -> R) b l : (forall c, In c l -> s c <> 0) ->
  sum_list (map (fun c => (s c * X c + h c) * (b * V c / s c)) l)
  = b * (sum_list (map (fun c => X c * V c) l) + sum_list (map (fun c => V c * h c / s c) l)).
Proof.
  induction l as [|c l IH]; intros Hs; cbn [map sum_list fold_right]; [ring|].
  unfold sum_list in IH. rewrite IH by (intros x Hx; apply Hs; now right).
  assert (s c <> 0) by (apply Hs; now left). field. assumption.
Qed.

Lemma Forall2_left {A} (P : A -> Prop) (l l' : list A) : Forall2 (fun x y => x = y /\ P x) l l' -> forall x, In x l -> P x.
Proof.
  intros F. induction F as [|x y l l' [_ Hx] F IH]; [intros x []|]. intros z [<-|Hz]; [exact Hx|now apply IH].
Qed.

Section Model.
  Variable qr : qr_function.
  Hypothesis Hqr : correct_qr qr.
  Variables (nan neg_inf : R) (custom : string -> dict R -> dict R -> list R -> result R).
  Hypothesis Hcustom : total_custom custom.
  Variables (md : model_dict) (p : processed) (n : nat) (ids : list Z) (df : frame R) (lv : list Z) (ar : arrays R)
    (params : list R) (ps : parsed R) (val : label -> R)
    (df' : frame R) (lv' : list Z) (ar' : arrays R) (params' : list R) (ps' : parsed R) (val' : label -> R) (u : units).
  Hypothesis H : likelihood_setting md p n df ids lv ar params ps.
  Hypothesis Hval : parameter_values (params_index_of p) params val.
  Hypothesis H' : likelihood_setting md p n df' ids lv' ar' params' ps'.
  Hypothesis Hval' : parameter_values (params_index_of p) params' val'.
  Hypothesis Hclean : clean_anchoring md.
  Hypothesis Hnd : nondegenerate md n (params_index_of p) val (arr2 (ps_scaling ps)).
  Hypothesis Hkappa : 0 <= Q2R (o_sigma_points_scale (p_options p)).
  Hypothesis Hunits : other_units md n ids u df lv df' lv'.
  Hypothesis Hconv : converted md n u val val'.
  Hypothesis Hanch : anchors_kept md n val val'.

  Let Hwf : wf_dicts md. Proof. apply H. Qed.
  Let Hp : process_model md = Ok p. Proof. apply H. Qed.
  Let Hn : has_n_periods md n. Proof. apply H. Qed.
  Let tfunc := model_tfunc nan neg_inf custom md (p_labels p).
  Let inp := inputs_of ps ar.
  Let inp' := inputs_of ps' ar'.
  Let given := given_value md n df lv.
  Let given' := given_value md n df' lv'.
  Let Hgiven : forall id t x, In id ids -> (t < n)%nat -> handed_over 1 md n df lv id t x (given id t x).
  Proof. intros. apply given_handed. Qed.
  Let Hgiven' : forall id t x, In id ids -> (t < n)%nat -> handed_over 1 md n df' lv' id t x (given' id t x).
  Proof. intros. apply given_handed. Qed.

  Lemma units_discarded id t : In id ids -> (t < n)%nat -> discarded 1 md n df' lv' id t <-> discarded 1 md n df lv id t.
  Proof.
    intros Hid Ht. destruct Hunits as (_ & _ & Um & Uc & _). unfold discarded.
    split; intros [(c & Hc & Ec) (v & Hv & Ev)]; (split; [exists c; split; [exact Hc|]|exists v; split; [exact Hv|]]).
    - rewrite (Uc id t c Hid Ht Hc) in Ec. now destruct (value 1 md df lv id t c).
    - rewrite (Um id t v Hid Hv) in Ev. now destruct (value 1 md df lv id t v).
    - rewrite (Uc id t c Hid Ht Hc). now rewrite Ec.
    - rewrite (Um id t v Hid Hv). now destruct (value 1 md df lv id t v).
  Qed.

  Lemma given_counts id t v : In id ids -> (t < n)%nat -> given id t v <> None <-> counts md n df lv id t v.
  Proof.
    intros Hid Ht. destruct (Hgiven id t v Hid Ht) as [A B]. unfold counts. split.
    - intros E. assert (D : ~ discarded 1 md n df lv id t) by (intros F; now apply E, A). split; [|exact D]. now rewrite <- (B D).
    - intros [E D]. now rewrite (B D).
  Qed.

  Lemma units_given id t x f : In id ids -> (t < n)%nat ->
    value 1 md df' lv' id t x = option_map f (value 1 md df lv id t x) -> given' id t x = option_map f (given id t x).
  Proof.
    intros Hid Ht E. destruct (Hgiven id t x Hid Ht) as [A B]. destruct (Hgiven' id t x Hid Ht) as [A' B'].
    destruct (Classical_Prop.classic (discarded 1 md n df lv id t)) as [D|D].
    - rewrite (A D), A'; [reflexivity|]. now apply units_discarded.
    - rewrite (B D), B'; [exact E|]. intros F. apply D. now apply units_discarded.
  Qed.

  Lemma constant_value df0 lv0 id t : value 1 md df0 lv0 id t "constant"%string = Some 1.
  Proof.
    unfold value, data_value. destruct (find _ (outcomes_of md)) as [fo|] eqn:Ef; [|reflexivity]. exfalso.
    apply find_some in Ef as [Hin Ef]. apply String.eqb_eq in Ef.
    apply (DataArrays.constant_not_copy (outcomes_of md)). rewrite Ef. now apply in_map.
  Qed.

  Let eq_b (k : nat) : R := match nth_error (equations md n) k with Some (t, v) => mb u t v | None => 1 end.
  Let eq_a (k : nat) : R := match nth_error (equations md n) k with Some (t, v) => ma u t v | None => 0 end.

  Lemma units_equations i k t v : (i < length ids)%nat -> nth_error (equations md n) k = Some (t, v) ->
    units_equation nan (length (latent_of md)) (S (length (controls_of md))) inp inp' eq_a eq_b i k t.
  Proof.
    intros Hi Hk. assert (Hin : In (t, v) (equations md n)) by (eapply nth_error_In, Hk).
    assert (Ht : (t < n)%nat) by (apply (equations_period md n t v Hin)).
    destruct (nth_error ids i) as [id|] eqn:Ei; [|apply nth_error_None in Ei; lia].
    assert (Hid : In id ids) by (eapply nth_error_In, Ei).
    destruct (proj1 Hconv t v Hin) as (Cl & Cs & Cc & C0). destruct Hunits as (Ub & Us & Um & Uc & _).
    unfold units_equation, eq_a, eq_b. rewrite Hk. unfold inp, inp'.
    rewrite (loading_form _ _ _ _ _ _ _ _ _ _ H' Hval' k t v Hk), (loading_form _ _ _ _ _ _ _ _ _ _ H Hval k t v Hk).
    rewrite (control_form _ _ _ _ _ _ _ _ _ _ H' Hval' k t v Hk), (control_form _ _ _ _ _ _ _ _ _ _ H Hval k t v Hk).
    rewrite (sd_form _ _ _ _ _ _ _ _ _ _ H' Hval' k t v Hk), (sd_form _ _ _ _ _ _ _ _ _ _ H Hval k t v Hk).
    rewrite (values_form _ _ _ _ _ _ _ _ _ H' _ Hgiven' k t v Hk), (values_form _ _ _ _ _ _ _ _ _ H _ Hgiven k t v Hk).
    rewrite (controls_form _ _ _ _ _ _ _ _ _ H' _ Hgiven' t Ht), (controls_form _ _ _ _ _ _ _ _ _ H _ Hgiven t Ht).
    split; [now apply Ub|]. split; [|split; [exact Cs|]].
    - intros j Hj. unfold arr1. destruct (nth_error (latent_of md) j) as [f|] eqn:Ef; [|apply nth_error_None in Ef; lia].
      rewrite !(nth_of_nth_error _ _ _ _ (map_nth_error _ _ _ Ef)). apply Cl. eapply nth_error_In, Ef.
    - unfold oarr1. rewrite !(nth_of_nth_error _ _ _ _ (map_nth_error _ _ _ Ei)).
      split; [now apply units_given, Um|]. intros Hne. apply (given_counts id t v Hid Ht) in Hne as [Hobs Hdis].
      unfold oarr2.
      rewrite (nth_of_nth_error (map (fun id => map (given id t) ("constant"%string :: controls_of md)) ids) i _ [] (map_nth_error _ _ _ Ei)).
      rewrite (nth_of_nth_error (map (fun id => map (given' id t) ("constant"%string :: controls_of md)) ids) i _ [] (map_nth_error _ _ _ Ei)).
      change (S (length (controls_of md))) with (length ("constant"%string :: controls_of md)).
      rewrite !dot_lists. cbn [map sum_list fold_right].
      assert (G : forall x, given id t x = value 1 md df lv id t x) by (intros x; now apply (Hgiven id t x Hid Ht)).
      assert (G' : forall x, given' id t x = value 1 md df' lv' id t x).
      { intros x. apply (Hgiven' id t x Hid Ht). intros F. apply Hdis. now apply units_discarded. }
      rewrite G, G', !constant_value, C0. cbn [to_number].
      set (X := fun c => to_number nan (given id t c)).
      fold (sum_list (map (fun c => to_number nan (given' id t c) * val' (CControls, t, v, c)) (controls_of md))).
      rewrite (map_ext_in (fun c => to_number nan (given' id t c) * val' (CControls, t, v, c))
        (fun c => (cs u t c * X c + ch u t c) * (mb u t v * val (CControls, t, v, c) / cs u t c))).
      + rewrite (sum_converted X (fun c => val (CControls, t, v, c)) (cs u t) (ch u t) (mb u t v) (controls_of md))
          by (intros c Hc; now apply Us). cbv beta.
        change (fold_right Rplus 0 (map (fun x => to_number nan (given id t x) * val (CControls, t, v, x)) (controls_of md)))
          with (sum_list (map (fun c => X c * val (CControls, t, v, c)) (controls_of md))). ring.
      + intros c Hc. rewrite (Cc c Hc). f_equal. unfold X. rewrite G, G', (Uc id t c Hid Ht Hc).
        destruct (value 1 md df lv id t c) as [x|] eqn:Ex; [reflexivity|]. exfalso. apply Hdis. split.
        * now exists c.
        * now exists v.
  Qed.

  Let Hrest lb : match lb with (CLoadings, _, _, _) | (CMeasSds, _, _, _) | (CControls, _, _, _) => True | _ => val lb = val' lb end.
  Proof. pose proof (proj2 Hconv lb) as E. destruct lb as [[[c t] x] y]. destruct c; auto. Qed.

  Lemma units_transition t : (S t < n)%nat -> transition_agrees tfunc tfunc inp inp' t.
  Proof.
    intros Ht.
    assert (Es : forall s, (s < n)%nat -> in_scaling inp s = in_scaling inp' s).
    { intros s Hs. refine (related_scaling md p n df lv ar params ps val md p n df' lv' ar' params' ps' val' ids H Hval Hclean H' Hval' Hclean eq_refl
        eq_refl eq_refl s Hs Hs _). intros fo Hfo. symmetry. now apply Hanch. }
    assert (Ec : forall s, (s < n)%nat -> in_constants inp s = in_constants inp' s).
    { intros s Hs. unfold inp, inp'.
      rewrite (constants_form _ _ _ _ _ _ _ _ _ _ H Hval s Hclean Hs), (constants_form _ _ _ _ _ _ _ _ _ _ H' Hval' s Hclean Hs).
      destruct (ignores_constant md) eqn:Eg; [reflexivity|]. do 3 f_equal. apply map_ext_in. intros fo Hfo.
      symmetry. now apply Hanch. }
    split; [|split; [|split; [|split; [|split; [|split]]]]]; try (apply Es; lia); try (apply Ec; lia).
    - f_equal. refine (related_coeffs md p n df lv ar params ps val md p n df' lv' ar' params' ps' val' ids H Hval H' Hval' eq_refl eq_refl t _ _ eq_refl _); try lia.
      intros f x. exact (Hrest (CTransition, t, f, x)).
    - refine (related_shocks md p n df lv ar params ps val md p n df' lv' ar' params' ps' val' ids H Hval H' Hval' eq_refl t _ _ _); try lia.
      intros f _. exact (Hrest (CShockSds, t, f, "-"%string)).
    - refine (related_observed md p n df lv ar params ps md p n df' lv' ar' params' ps' ids H H' eq_refl _ _ Hgiven Hgiven' t _ _ _); try lia.
      intros id x Hid Hx. destruct Hunits as (_ & _ & _ & _ & Uo).
      rewrite (units_given id t x (fun y => y) Hid ltac:(lia)); [now destruct (given id t x)|].
      rewrite (Uo id t x Hid ltac:(lia) Hx). now destruct (value 1 md df lv id t x).
  Qed.

  Lemma units_initial : initial_belief ps = initial_belief ps'.
  Proof.
    refine (related_initial md p n df lv ar params ps val md p n df' lv' ar' params' ps' val' ids H Hval H' Hval' eq_refl eq_refl _ _ _); intros.
    - exact (Hrest (CInitStates, O, e, f)).
    - exact (Hrest (CInitChol, O, e, x)).
    - exact (Hrest (CMixWeights, O, e, "-"%string)).
  Qed.

  Lemma units_events i : (i < length ids)%nat ->
    Forall (units_event nan tfunc (length (latent_of md)) (S (length (controls_of md))) inp inp' eq_a eq_b i)
      (code_events 0 (purposes (p_update p))).
  Proof.
    intros Hi. pose proof (all_regular nan neg_inf custom Hcustom md p n df ids lv ar params ps val H Hval Hnd) as Hreg.
    rewrite Forall_forall in Hreg |- *. intros e He. split; [now apply Hreg|].
    set (P := fun e => match e with
        | Measure k t | Anchor k t => units_equation nan (length (latent_of md)) (S (length (controls_of md))) inp inp' eq_a eq_b i k t
        | Transition t => transition_agrees tfunc tfunc inp inp' t end).
    assert (F : Forall2 (fun e e' => e = e' /\ P e)
      (code_events 0 (purposes (p_update p))) (code_events 0 (purposes (p_update p)))).
    { rewrite (purposes_equations md p n Hwf Hp Hn). apply code_events_Forall.
      - intros k t bb Hk. rewrite nth_error_map in Hk.
        destruct (nth_error (equations md n) k) as [[s v]|] eqn:Ek; [|discriminate]. injection Hk as <- <-.
        pose proof (units_equations i k s v Hi Ek) as Ag. rewrite Nat.add_0_l. split; [reflexivity|].
        unfold ev. cbn [fst snd]. now destruct (is_anchoring_equation md v).
      - intros k t bb bb' _ Hk. rewrite nth_error_map in Hk.
        destruct (nth_error (equations md n) (S k)) as [[s v]|] eqn:Ek; [|discriminate]. injection Hk as Es _. cbn [fst] in Es. subst s.
        split; [reflexivity|]. apply units_transition. apply (equations_period md n _ v). eapply nth_error_In, Ek. }
    exact (Forall2_left P _ _ F e He).
  Qed.

  Lemma units_outputs debug out out' recs recs' :
    reports (p_options p) (length ids) recs (initial_belief ps) debug out ->
    reports (p_options p) (length ids) recs' (initial_belief ps') debug out' ->
    length recs = length (equations md n) -> length recs' = length (equations md n) ->
    (forall i, (i < length ids)%nat -> forall k r r', nth_error recs k = Some r -> nth_error recs' k = Some r' ->
       units_record (n_mixtures_of md) (length (latent_of md)) inp eq_b i k r r') ->
    converted_output md n ids df lv u (p_options p) out out'.
  Proof.
    intros (V & C & N & D) (V' & C' & N' & D') Hl Hl' F.
    set (c := fun (rs : list record) k i => match nth_error rs k with Some r => re_contribution r i | None => 0 end).
    assert (S0 : forall rs i, contribution_of (p_options p) rs i
      = sum_list (map (fun k => clip_with (p_options p) (c rs k i)) (seq 0 (length rs)))).
    { intros rs i. unfold contribution_of. f_equal.
      rewrite <- (map_map (fun k => c rs k i) (clip_with (p_options p))), <- (map_map (fun r => re_contribution r i) (clip_with (p_options p))).
      f_equal. unfold c. clear. induction rs as [|r rs IH]; [reflexivity|]. cbn [map length seq nth_error]. f_equal.
      rewrite <- seq_shift, map_map. exact IH. }
    exists (c recs), (c recs'). split; [|split; [|split; [|split]]].
    - intros i id k t v Hid Hk.
      assert (Hi : (i < length ids)%nat) by (apply nth_error_Some; congruence).
      assert (Ht : (t < n)%nat) by (apply (equations_period md n t v); eapply nth_error_In, Hk).
      assert (Hkl : (k < length (equations md n))%nat) by (apply nth_error_Some; congruence).
      destruct (nth_error recs k) as [r|] eqn:Ek; [|apply nth_error_None in Ek; lia].
      destruct (nth_error recs' k) as [r'|] eqn:Ek'; [|apply nth_error_None in Ek'; lia].
      destruct (F i Hi k r r' Ek Ek') as (F1 & F2 & _). unfold c. rewrite Ek, Ek'.
      pose proof (given_counts id t v (nth_error_In _ _ Hid) Ht) as Hg.
      assert (Ev : in_values inp k i = given id t v).
      { unfold inp. rewrite (values_form _ _ _ _ _ _ _ _ _ H _ Hgiven k t v Hk). unfold oarr1.
        now rewrite (nth_of_nth_error _ _ _ _ (map_nth_error _ _ _ Hid)). }
      rewrite Ev in F1, F2. unfold eq_b in F1. rewrite Hk in F1. split.
      + intros Hc. apply Hg in Hc. destruct (given id t v); [exact F1|congruence].
      + intros Hc. destruct (given id t v) eqn:Eg; [exfalso; apply Hc, Hg; discriminate|]. cbn [isfinite] in F1.
        specialize (F2 eq_refl). rewrite F1, F2. split; ring.
    - intros i Hi. rewrite C, C'. rewrite !S0, Hl, Hl'. now split.
    - rewrite V. apply rsum_ext. intros i Hi. now rewrite C.
    - rewrite V'. apply rsum_ext. intros i Hi. now rewrite C'.
    - destruct debug; [|now rewrite (N eq_refl), (N' eq_refl)].
      destruct (D eq_refl) as (d & -> & I1 & I2 & K). destruct (D' eq_refl) as (d' & -> & I1' & I2' & K').
      intros i k t v Hi Hk.
      assert (Hkl : (k < length (equations md n))%nat) by (apply nth_error_Some; congruence).
      destruct (nth_error recs k) as [r|] eqn:Ek; [|apply nth_error_None in Ek; lia].
      destruct (nth_error recs' k) as [r'|] eqn:Ek'; [|apply nth_error_None in Ek'; lia].
      destruct (F i Hi k r r' Ek Ek') as (_ & _ & F3).
      destruct (K k r Ek) as (K1 & K2 & K3 & K4 & K5). destruct (K' k r' Ek') as (K1' & K2' & K3' & K4' & K5').
      rewrite K1, K1', K2, K2', K3, K3', K4, K4', K5, K5', I1, I1', I2, I2', <- units_initial. unfold c. rewrite Ek, Ek'.
      split; [reflexivity|]. split; [reflexivity|]. intros m Hm. destruct (F3 m Hm) as (B1 & B2 & B3 & B4).
      unfold eq_b in B3, B4. rewrite Hk in B3, B4. split; [intros a _; reflexivity|]. auto.
  Qed.

  Lemma units_likelihood debug :
    match log_likelihood qr nan tfunc p ar debug params, log_likelihood qr nan tfunc p ar' debug params' with
    | Ok out, Ok out' => converted_output md n ids df lv u (p_options p) out out'
    | Err e, Err e' => e = e'
    | _, _ => False
    end.
  Proof.
    assert (Hlu : length (p_update p) = length (equations md n)).
    { rewrite (equations_update md p n Hwf Hp Hn). now rewrite map_length. }
    destruct (shapes_fit (length ids) (n_mixtures (p_dims p)) (n_observed (p_dims p))) eqn:Hfit.
    - destruct (likelihood_events qr nan tfunc md p n df ids lv ar params ps debug H Hfit)
        as (recs & out & Er & Hl & -> & Hr).
      destruct (likelihood_events qr nan tfunc md p n df' ids lv' ar' params' ps' debug H' Hfit)
        as (recs' & out' & Er' & Hl' & -> & Hr').
      apply (units_outputs debug out out' recs recs' Hr Hr'); [congruence|congruence|].
      intros i Hi. unfold run_model in Er, Er'.
      destruct (p_dims_eq md p Hp) as (Dl & Do & Dc & Dm & _).
      assert (Hnm : (1 <= n_mixtures (p_dims p))%nat) by (apply (parse_mixtures p params (length ids) ps); apply H).
      pose proof (model_tfunc_local nan neg_inf custom md p Hp) as Hloc.
      rewrite Dl, Do, Dc, Dm in *.
      intros k r r' Ek Ek'.
      refine (run_units qr Hqr nan tfunc (length ids) _ _ _ _ _ inp inp' eq_a eq_b i Hnm Hkappa _ _ Hloc _ _ _ _ _
        (units_events i Hi) _ Er Er' k k r r' _ Ek Ek').
      + assert (0 < INR (length (latent_of md))).
        { apply lt_0_INR. destruct Hn as [(f & fs & Hin & _) _]. unfold latent_of. rewrite map_length.
          destruct (md_factors md); [destruct Hin|cbn; lia]. }
        lra.
      + apply shapes_fit_spec in Hfit as [F|F]; [lia|exact F].
      + rewrite <- units_initial. split; [|intros; reflexivity]. intros m Hm. split; [intros a _; reflexivity|]. split; [|apply signs_refl].
        exact (initial_nonsingular md p n df ids lv ar params ps val H Hval Hnd i m Hi Hm).
      + rewrite code_numbers. assert (Hk : (k < length (purposes (p_update p)))%nat).
        { unfold purposes. rewrite map_length. rewrite <- Hl. apply nth_error_Some. congruence. }
        exact (nth_error_range (length (purposes (p_update p))) k Hk).
    - destruct (p_update p) as [|r0 u0] eqn:Eu.
      + unfold log_likelihood. destruct (ar_shapes md p n df ids lv ar params ps H) as (_ & _ & ->).
        destruct (ar_shapes md p n df' ids lv' ar' params' ps' H') as (_ & _ & ->).
        assert (Hps : parse_for 0 1 ln p params (length ids) = Ok ps) by apply H.
        assert (Hps' : parse_for 0 1 ln p params' (length ids) = Ok ps') by apply H'. rewrite Hps, Hps'. cbn [rbind].
        rewrite (loop_args_ok md p n df ids lv ar params ps H), (loop_args_ok md p n df' ids lv' ar' params' ps' H'), Eu.
        cbn [length seq map rbind scan snd].
        assert (E0 : equations md n = []) by (cbn [length] in Hlu; now destruct (equations md n)).
        exists (fun _ _ => 0), (fun _ _ => 0). rewrite E0. cbn [length seq map sum_list fold_right out_contributions out_value out_debug].
        split; [intros i id k t v _ Hk; destruct k; discriminate|].
        split; [intros i Hi; split; reflexivity|].
        split; [symmetry; now apply rsum_zero|]. split; [symmetry; now apply rsum_zero|].
        destruct debug; [|exact I]. intros i k t v _ Hk. destruct k; discriminate.
      + rewrite (likelihood_misfits qr nan tfunc md p n df ids lv ar params ps debug H Hfit) by (rewrite Eu; discriminate).
        rewrite (likelihood_misfits qr nan tfunc md p n df' ids lv' ar' params' ps' debug H' Hfit) by (rewrite Eu; discriminate).
        reflexivity.
  Qed.
End Model.

(** * C103 *)

(** Recording measurements and controls in other units: with the parameters of the
    measurement equations converted accordingly, every contribution of an observed
    variable changes by the logarithm of its unit, and all else is the same: estimated
    factors, mixture weights and standardized residuals. *)
Theorem C103_other_units :
  forall qr nan neg_inf custom md p n ids df lv ar params ps val df' lv' ar' params' ps' val' u debug,
    correct_qr qr -> total_custom custom ->
    likelihood_setting md p n df ids lv ar params ps -> parameter_values (params_index_of p) params val ->
    likelihood_setting md p n df' ids lv' ar' params' ps' -> parameter_values (params_index_of p) params' val' ->
    clean_anchoring md -> nondegenerate md n (params_index_of p) val (arr2 (ps_scaling ps)) ->
    0 <= Q2R (o_sigma_points_scale (p_options p)) ->
    other_units md n ids u df lv df' lv' -> converted md n u val val' -> anchors_kept md n val val' ->
    let tfunc := model_tfunc nan neg_inf custom md (p_labels p) in
    match log_likelihood qr nan tfunc p ar debug params, log_likelihood qr nan tfunc p ar' debug params' with
    | Ok out, Ok out' => converted_output md n ids df lv u (p_options p) out out'
    | Err e, Err e' => e = e'
    | _, _ => False
    end.
Proof.
  intros qr nan neg_inf custom md p n ids df lv ar params ps val df' lv' ar' params' ps' val' u debug
    Hqr Hcustom H Hval H' Hval' Hclean Hnd Hkappa Hunits Hconv Hanch tfunc.
  exact (units_likelihood qr Hqr nan neg_inf custom Hcustom md p n ids df lv ar params ps val df' lv' ar' params' ps' val' u
    H Hval H' Hval' Hclean Hnd Hkappa Hunits Hconv Hanch debug).
Qed.
Print Assumptions C103_other_units.

Lemma counts_dec md n df lv id t v : {counts md n df lv id t v} + {~ counts md n df lv id t v}.
Proof.
  destruct (given_value md n df lv id t v) as [x|] eqn:E.
  - left. destruct (given_handed md n df lv id t v) as [A B]. rewrite E in A, B.
    assert (D : ~ discarded 1 md n df lv id t) by (intros F; discriminate (A F)). split; [|exact D]. rewrite <- (B D). discriminate.
  - right. intros [A D]. destruct (given_handed md n df lv id t v) as [_ B]. rewrite E in B. now apply A; rewrite (B D).
Defined.

(** Without clipping, the log likelihood changes by a number that depends only on which
    variables are observed, so it has the same maximizers: converting the data changes
    the estimates only by the conversion. *)
Corollary C103_same_maximizers :
  forall qr nan neg_inf custom md p n ids df lv ar df' lv' ar' u debug,
    correct_qr qr -> total_custom custom -> clean_anchoring md ->
    0 <= Q2R (o_sigma_points_scale (p_options p)) ->
    o_clip_lower (p_options p) = None -> o_clip_upper (p_options p) = None ->
    other_units md n ids u df lv df' lv' ->
    let tfunc := model_tfunc nan neg_inf custom md (p_labels p) in
    exists shift : R, forall params ps val params' ps' val' out out',
      likelihood_setting md p n df ids lv ar params ps -> parameter_values (params_index_of p) params val ->
      likelihood_setting md p n df' ids lv' ar' params' ps' -> parameter_values (params_index_of p) params' val' ->
      nondegenerate md n (params_index_of p) val (arr2 (ps_scaling ps)) ->
      converted md n u val val' -> anchors_kept md n val val' ->
      log_likelihood qr nan tfunc p ar debug params = Ok out -> log_likelihood qr nan tfunc p ar' debug params' = Ok out' ->
      out_value out' = out_value out - shift.
Proof.
  intros qr nan neg_inf custom md p n ids df lv ar df' lv' ar' u debug Hqr Hcustom Hclean Hkappa Hlo Hup Hunits tfunc.
  set (jac := fun i k => match nth_error ids i, nth_error (equations md n) k with
    | Some id, Some (t, v) => if counts_dec md n df lv id t v then ln (Rabs (mb u t v)) else 0 | _, _ => 0 end).
  exists (rsum (length ids) (fun i => sum_list (map (jac i) (seq 0 (length (equations md n)))))).
  intros params ps val params' ps' val' out out' H Hval H' Hval' Hnd Hconv Hanch E E'.
  pose proof (C103_other_units qr nan neg_inf custom md p n ids df lv ar params ps val df' lv' ar' params' ps' val' u debug
    Hqr Hcustom H Hval H' Hval' Hclean Hnd Hkappa Hunits Hconv Hanch) as T. cbv zeta in T. fold tfunc in T. rewrite E, E' in T.
  destruct T as (c & c' & A & B & V & V' & _). rewrite V, V'.
  assert (Cl : forall x, clip_with (p_options p) x = x) by (intros x; unfold clip_with, soft_clip; now rewrite Hlo, Hup).
  enough (G : forall i, (i < length ids)%nat -> out_contributions out' i
      = out_contributions out i + -1 * sum_list (map (jac i) (seq 0 (length (equations md n))))).
  { rewrite (rsum_ext _ _ _ G), rsum_plus, rsum_scal_l. ring. }
  intros i Hi. destruct (B i Hi) as [-> ->].
  assert (J : forall k, In k (seq 0 (length (equations md n))) -> c' k i = c k i - jac i k).
  { intros k Hk. apply in_seq in Hk. unfold jac.
    destruct (nth_error ids i) as [id|] eqn:Ei; [|apply nth_error_None in Ei; lia].
    destruct (nth_error (equations md n) k) as [[t v]|] eqn:Ek; [|apply nth_error_None in Ek; lia].
    destruct (A i id k t v Ei Ek) as [A1 A2].
    destruct (counts_dec md n df lv id t v) as [Hc|Hc]; [now apply A1|]. destruct (A2 Hc) as [-> ->]. ring. }
  revert J. generalize (seq 0 (length (equations md n))). intros l J.
  induction l as [|k l IH]; cbn [map sum_list fold_right]; [ring|].
  unfold sum_list in IH. rewrite !Cl, IH by (intros x Hx; apply J; now right). rewrite (J k) by now left. ring.
Qed.
Print Assumptions C103_same_maximizers.

(** If only origins and signs are changed, nothing changes, with or without clipping. *)
Corollary C103_origins_and_signs :
  forall qr nan neg_inf custom md p n ids df lv ar params ps val df' lv' ar' params' ps' val' u debug,
    correct_qr qr -> total_custom custom ->
    likelihood_setting md p n df ids lv ar params ps -> parameter_values (params_index_of p) params val ->
    likelihood_setting md p n df' ids lv' ar' params' ps' -> parameter_values (params_index_of p) params' val' ->
    clean_anchoring md -> nondegenerate md n (params_index_of p) val (arr2 (ps_scaling ps)) ->
    0 <= Q2R (o_sigma_points_scale (p_options p)) ->
    other_units md n ids u df lv df' lv' -> converted md n u val val' -> anchors_kept md n val val' ->
    (forall t v, In (t, v) (equations md n) -> Rabs (mb u t v) = 1) ->
    let tfunc := model_tfunc nan neg_inf custom md (p_labels p) in
    match log_likelihood qr nan tfunc p ar debug params, log_likelihood qr nan tfunc p ar' debug params' with
    | Ok out, Ok out' => out_value out' = out_value out /\
        forall i, (i < length ids)%nat -> out_contributions out' i = out_contributions out i
    | Err e, Err e' => e = e'
    | _, _ => False
    end.
Proof.
  intros qr nan neg_inf custom md p n ids df lv ar params ps val df' lv' ar' params' ps' val' u debug
    Hqr Hcustom H Hval H' Hval' Hclean Hnd Hkappa Hunits Hconv Hanch H1 tfunc.
  pose proof (C103_other_units qr nan neg_inf custom md p n ids df lv ar params ps val df' lv' ar' params' ps' val' u debug
    Hqr Hcustom H Hval H' Hval' Hclean Hnd Hkappa Hunits Hconv Hanch) as T. cbv zeta in T. fold tfunc in T.
  destruct (log_likelihood qr nan tfunc p ar debug params) as [out|e], (log_likelihood qr nan tfunc p ar' debug params') as [out'|e'];
    try exact T.
  destruct T as (c & c' & A & B & V & V' & _).
  enough (G : forall i, (i < length ids)%nat -> out_contributions out' i = out_contributions out i).
  { split; [rewrite V, V'; now apply rsum_ext|exact G]. }
  intros i Hi. destruct (B i Hi) as [-> ->]. f_equal. apply map_ext_in. intros k Hk. f_equal. apply in_seq in Hk.
  destruct (nth_error ids i) as [id|] eqn:Ei; [|apply nth_error_None in Ei; lia].
  destruct (nth_error (equations md n) k) as [[t v]|] eqn:Ek; [|apply nth_error_None in Ek; lia].
  destruct (A i id k t v Ei Ek) as [A1 A2]. rewrite (H1 t v (nth_error_In _ _ Ek)), ln_1 in A1.
  destruct (counts_dec md n df lv id t v) as [Hc|Hc]; [rewrite (A1 Hc); ring|]. now destruct (A2 Hc) as [-> ->].
Qed.
Print Assumptions C103_origins_and_signs.

(** ** Example *)

(** The example data in other units. The anchoring outcomes Q1 and Q2 are left alone. *)
Definition new_unit (x : string) : Z * Z :=
  if String.eqb x "a" then (2, 1)%Z else if String.eqb x "b" then (-1, 0)%Z else if String.eqb x "c" then (1, 3)%Z
  else if String.eqb x "s" then (-3, 2)%Z else if String.eqb x "x1" then (2, -1)%Z else (1, 0)%Z.
Definition in_new_unit (x : string) (z : Z) : Z := (fst (new_unit x) * z + snd (new_unit x))%Z.

Definition changed_frame (g : string -> Z -> Z) (df : frame Z) : frame Z :=
  mk_frame (fr_columns df) (fr_id_level df) (fr_period_level df)
    (map (fun r => mk_drow (dr_id r) (dr_period r) (fun c => option_map (g c) (dr_cells r c))) (fr_rows df)).
Definition unit_df : frame Z := changed_frame in_new_unit ex_df.

Lemma raw_changed g df lv id t y : raw_cells (changed_frame g df) lv id t y = option_map (g y) (raw_cells df lv id t y).
Proof.
  unfold raw_cells. destruct (nth_error lv t) as [z|]; [|reflexivity]. unfold changed_frame. cbn [fr_rows].
  induction (fr_rows df) as [|r rs IH]; [reflexivity|]. cbn [map find dr_id dr_period].
  destruct (Z.eqb (dr_id r) id && Z.eqb (dr_period r) z); [reflexivity|exact IH].
Qed.

Definition the_units : units :=
  mk_units (fun _ v => IZR (fst (new_unit v))) (fun _ v => IZR (snd (new_unit v)))
    (fun _ c => IZR (fst (new_unit c))) (fun _ c => IZR (snd (new_unit c))).

Definition is_copy (v : string) : bool := existsb (String.eqb v) (map copy_name (outcomes_of kept_model)).
Definition unit_value (lb : label) : R :=
  match lb with
  | (CControls, _, v, c) => if is_copy v && negb (String.eqb c "constant") then 0 else 1
  | _ => 1
  end.
Definition unit_value' (lb : label) : R :=
  match lb with
  | (CControls, t, v, c) =>
      if String.eqb c "constant"
      then IZR (fst (new_unit v)) * (1 - (unit_value (CControls, t, v, "x1"%string) * -1 / 2 + 0)) + IZR (snd (new_unit v))
      else IZR (fst (new_unit v)) * unit_value lb / IZR (fst (new_unit c))
  | (CLoadings, _, v, _) => IZR (fst (new_unit v)) * unit_value lb
  | (CMeasSds, _, v, _) => Rabs (IZR (fst (new_unit v))) * unit_value lb
  | _ => 1
  end.

Lemma unit_setting : data_setting kept_model kept_p 3 unit_df ex_ids ex_lv.
Proof.
  destruct kept_setting as (H1 & H2 & H3 & H4 & H5 & H6 & H7).
  split; [exact H1|]. split; [exact H2|]. split; [exact H3|]. split; [exact H4|]. split; [|split; [|exact H7]].
  - intros r Hr. apply in_map_iff in Hr as (r0 & <- & Hr). exact (H5 r0 Hr).
  - destruct H6 as [S6 I6]. split; [exact S6|]. intros z. rewrite I6. split.
    + intros (r & Hr & E). eexists. split; [apply in_map, Hr|exact E].
    + intros (r & Hr & E). apply in_map_iff in Hr as (r0 & <- & Hr). exists r0. split; [exact Hr|exact E].
Qed.

Lemma unit_equations t v : In (t, v) (equations kept_model 3) ->
  In v ["a"; "b"; "c"; "s"]%string \/ v = "Q1_cog"%string \/ v = "Q2_soc"%string.
Proof.
  intros Hin.
  assert (E : forallb (fun e => existsb (String.eqb (snd e)) ["a"; "b"; "c"; "s"; "Q1_cog"; "Q2_soc"]%string) (equations kept_model 3) = true)
    by (vm_compute; reflexivity).
  rewrite forallb_forall in E. specialize (E (t, v) Hin). apply existsb_exists in E as (x & Hx & E). cbn [snd] in E.
  apply String.eqb_eq in E as ->. clear Hin. cbn [In] in *. intuition (subst; auto).
Qed.

Lemma unit_copy id t v : v = "Q1_cog"%string \/ v = "Q2_soc"%string ->
  value 1 kept_model (real_frame unit_df) ex_lv id t v = value 1 kept_model (real_frame ex_df) ex_lv id t v.
Proof.
  intros Hv. rewrite !real_value. f_equal.
  assert (Q : forall q, new_unit q = (1, 0)%Z -> raw_cells unit_df ex_lv id t q = raw_cells ex_df ex_lv id t q).
  { intros q Hq. unfold unit_df. rewrite raw_changed. destruct (raw_cells ex_df ex_lv id t q) as [z|]; [|reflexivity].
    cbn [option_map]. unfold in_new_unit. rewrite Hq. cbn [fst snd]. f_equal. lia. }
  unfold value, data_value.
  destruct Hv as [-> | ->].
  - replace (find (fun fo => String.eqb "Q1_cog" (copy_name fo)) (outcomes_of kept_model)) with (Some ("cog", "Q1")%string) by reflexivity.
    now apply Q.
  - replace (find (fun fo => String.eqb "Q2_soc" (copy_name fo)) (outcomes_of kept_model)) with (Some ("soc", "Q2")%string) by reflexivity.
    now apply Q.
Qed.

Lemma unit_changed id t x : ~ In x ["constant"; "Q1_cog"; "Q2_soc"]%string ->
  value 1 kept_model (real_frame unit_df) ex_lv id t x
  = option_map (fun z => IZR (fst (new_unit x)) * z + IZR (snd (new_unit x))) (value 1 kept_model (real_frame ex_df) ex_lv id t x).
Proof.
  intros Hx. rewrite !real_value.
  assert (E : forall df, value 1%Z kept_model df ex_lv id t x = raw_cells df ex_lv id t x).
  { intros df. unfold value, data_value.
    assert (F : find (fun fo => String.eqb x (copy_name fo)) (outcomes_of kept_model) = None).
    { destruct (find _ (outcomes_of kept_model)) as [fo|] eqn:F; [|reflexivity]. exfalso. apply Hx.
      apply find_some in F as [Hin F]. apply String.eqb_eq in F as ->.
      assert (Hin' : In fo [("cog", "Q1"); ("soc", "Q2")]%string) by exact Hin.
      destruct Hin' as [<-|[<-|[]]]; [right; now left|right; right; now left]. }
    rewrite F. destruct (String.eqb_spec x "constant") as [->|_]; [destruct Hx; now left|reflexivity]. }
  rewrite !E. unfold unit_df. rewrite raw_changed. destruct (raw_cells ex_df ex_lv id t x) as [z|]; [|reflexivity].
  cbn [option_map]. f_equal. unfold in_new_unit. now rewrite plus_IZR, mult_IZR.
Qed.

Lemma unit_other_units : other_units kept_model 3 ex_ids the_units (real_frame ex_df) ex_lv (real_frame unit_df) ex_lv.
Proof.
  split; [|split; [|split; [|split]]].
  - intros t v Hin. cbn [mb the_units]. apply not_0_IZR.
    destruct (unit_equations t v Hin) as [[<-|[<-|[<-|[<-|[]]]]]|[-> | ->]]; discriminate.
  - intros t c _ Hc. cbn [cs the_units]. apply not_0_IZR.
    assert (Hc' : In c ["x1"%string]) by exact Hc. destruct Hc' as [<-|[]]. discriminate.
  - intros id t v Hid Hin. cbn [mb ma the_units].
    destruct (unit_equations t v Hin) as [Hv|Hv].
    + apply unit_changed. intros F. destruct Hv as [<-|[<-|[<-|[<-|[]]]]]; destruct F as [F|[F|[F|[]]]]; discriminate.
    + rewrite (unit_copy id t v Hv). assert (Eu : new_unit v = (1, 0)%Z) by (destruct Hv as [-> | ->]; reflexivity). rewrite Eu.
      cbn [fst snd]. destruct (value 1 kept_model (real_frame ex_df) ex_lv id t v) as [z|]; [|reflexivity]. cbn [option_map]. f_equal. ring.
  - intros id t c Hid Ht Hc. cbn [cs ch the_units]. apply unit_changed.
    assert (Hc' : In c ["x1"%string]) by exact Hc. destruct Hc' as [<-|[]]. intros [F|[F|[F|[]]]]; discriminate.
  - intros id t f Hid Ht Hf. assert (Hf' : In f ["inc"%string]) by exact Hf. destruct Hf' as [<-|[]].
    rewrite unit_changed by (intros [F|[F|[F|[]]]]; discriminate). change (new_unit "inc") with (1, 0)%Z. cbn [fst snd].
    destruct (value 1 kept_model (real_frame ex_df) ex_lv id t "inc"%string) as [z|]; [|reflexivity]. cbn [option_map]. f_equal. ring.
Qed.

(** Values by label are those of the two functions, on the index of the parameters. *)
Lemma unit_converted idx : NoDup idx ->
  (forall t v, In (t, v) (equations kept_model 3) -> In (CControls, t, v, "constant"%string) idx /\ In (CControls, t, v, "x1"%string) idx) ->
  converted kept_model 3 the_units (val_of 0 idx (map unit_value idx)) (val_of 0 idx (map unit_value' idx)).
Proof.
  intros Hnd Hidx.
  assert (V : forall (w : label -> R) lb, In lb idx -> val_of 0 idx (map w idx) lb = w lb) by (intros w lb; now apply val_of_values).
  assert (N : forall (w : label -> R) lb, ~ In lb idx -> val_of 0 idx (map w idx) lb = 0) by (intros w lb; apply val_of_absent).
  split.
  - intros t v Hin. destruct (Hidx t v Hin) as [I0 I1]. cbn [mb ma cs ch the_units]. split; [|split; [|split]].
    + intros f _. destruct (in_dec label_eq_dec (CLoadings, t, v, f) idx) as [I|I]; [rewrite !V by exact I; reflexivity|rewrite !N by exact I; ring].
    + destruct (in_dec label_eq_dec (CMeasSds, t, v, "-"%string) idx) as [I|I]; [rewrite !V by exact I; reflexivity|rewrite !N by exact I; ring].
    + intros c Hc. assert (Hc' : In c ["x1"%string]) by exact Hc. destruct Hc' as [<-|[]]. rewrite !V by exact I1. reflexivity.
    + change (controls_of kept_model) with ["x1"%string]. cbn [map sum_list fold_right]. rewrite !V by assumption.
      change (new_unit "x1") with (2, -1)%Z. cbn [fst snd].
      unfold unit_value' at 1. replace (String.eqb "constant" "constant") with true by reflexivity.
      replace (unit_value (CControls, t, v, "constant"%string)) with 1; [reflexivity|].
      unfold unit_value. now rewrite andb_false_r.
  - intros lb. destruct lb as [[[c t] x] y].
    destruct (in_dec label_eq_dec (c, t, x, y) idx) as [I|I].
    + destruct c; try exact Logic.I; now rewrite !V by exact I.
    + destruct c; try exact Logic.I; now rewrite !N by exact I.
Qed.

Lemma unit_anchors idx : NoDup idx ->
  (forall t v, In (t, v) (equations kept_model 3) -> In (CControls, t, v, "constant"%string) idx) ->
  (forall t fo, (t < 3)%nat -> In fo (outcomes_of kept_model) -> In (t, copy_name fo) (equations kept_model 3)) ->
  anchors_kept kept_model 3 (val_of 0 idx (map unit_value idx)) (val_of 0 idx (map unit_value' idx)).
Proof.
  intros Hnd Hidx Heq t fo Ht Hfo. pose proof (Hidx t _ (Heq t fo Ht Hfo)) as I0.
  assert (V : forall (w : label -> R) lb, In lb idx -> val_of 0 idx (map w idx) lb = w lb) by (intros w lb; now apply val_of_values).
  assert (N : forall (w : label -> R) lb, ~ In lb idx -> val_of 0 idx (map w idx) lb = 0) by (intros w lb; apply val_of_absent).
  assert (Hu : new_unit (copy_name fo) = (1, 0)%Z /\ is_copy (copy_name fo) = true).
  { assert (Hfo' : In fo [("cog", "Q1"); ("soc", "Q2")]%string) by exact Hfo. destruct Hfo' as [<-|[<-|[]]]; split; reflexivity. }
  destruct Hu as [Hu Hcopy]. split.
  - destruct (in_dec label_eq_dec (CLoadings, t, copy_name fo, fst fo) idx) as [I|I]; [|now rewrite !N by exact I].
    rewrite !V by exact I. unfold unit_value', unit_value. rewrite Hu. cbn [fst snd]. ring.
  - intros _. rewrite !V by exact I0. unfold unit_value', unit_value. rewrite Hu, Hcopy. cbn [fst snd].
    replace (String.eqb "constant" "constant") with true by reflexivity. cbn [negb andb].
    replace (String.eqb "x1" "constant") with false by reflexivity. cbn [negb]. field.
Qed.

Lemma unit_nondegenerate idx scale : NoDup idx ->
  (forall t f, (t + 1 < 3)%nat -> In f (latent_of kept_model) -> In (CShockSds, t, f, "-"%string) idx) ->
  nondegenerate kept_model 3 idx (val_of 0 idx (map unit_value idx)) scale.
Proof.
  intros Hnd Hs.
  assert (V : forall (w : label -> R) lb, In lb idx -> val_of 0 idx (map w idx) lb = w lb) by (intros w lb; now apply val_of_values).
  split; [|split].
  - intros t v I. rewrite V by exact I. cbn [unit_value]. lra.
  - intros e f I. rewrite V by exact I. cbn [unit_value]. lra.
  - intros t j f fs Ht Hj _. left. rewrite V by (apply Hs; [exact Ht|eapply nth_error_In, Hj]). cbn [unit_value]. lra.
Qed.

Example C103_nonvacuous : exists ar ps val ar' ps' val',
  likelihood_setting kept_model kept_p 3 (real_frame ex_df) ex_ids ex_lv ar (map unit_value (params_index_of kept_p)) ps /\
  parameter_values (params_index_of kept_p) (map unit_value (params_index_of kept_p)) val /\
  likelihood_setting kept_model kept_p 3 (real_frame unit_df) ex_ids ex_lv ar' (map unit_value' (params_index_of kept_p)) ps' /\
  parameter_values (params_index_of kept_p) (map unit_value' (params_index_of kept_p)) val' /\
  clean_anchoring kept_model /\ nondegenerate kept_model 3 (params_index_of kept_p) val (arr2 (ps_scaling ps)) /\
  0 <= Q2R (o_sigma_points_scale (p_options kept_p)) /\
  other_units kept_model 3 ex_ids the_units (real_frame ex_df) ex_lv (real_frame unit_df) ex_lv /\
  converted kept_model 3 the_units val val' /\ anchors_kept kept_model 3 val val'.
Proof.
  assert (Hnd : NoDup (params_index_of kept_p)) by (apply (idx_NoDup kept_model kept_p); [apply kept_setting|exact kept_good_names|exact kept_model_accepted]).
  destruct (any_example kept_model kept_p 3 ex_df ex_ids ex_lv
    (get_ok (process_data 1%Z Z.eqb ex_df (p_labels kept_p) (p_update kept_p) (p_anch kept_p) true) ex_arrays)
    unit_value kept_setting kept_good_names kept_clean ltac:(lia)) as (ar & ps & H).
  { apply Nat.leb_le. reflexivity. }
  { vm_compute. reflexivity. }
  destruct (any_example kept_model kept_p 3 unit_df ex_ids ex_lv
    (get_ok (process_data 1%Z Z.eqb unit_df (p_labels kept_p) (p_update kept_p) (p_anch kept_p) true) ex_arrays)
    unit_value' unit_setting kept_good_names kept_clean ltac:(lia)) as (ar' & ps' & H').
  { apply Nat.leb_le. reflexivity. }
  { vm_compute. reflexivity. }
  assert (Hc : forall t v c, In (t, v) (equations kept_model 3) -> In c ["constant"; "x1"]%string -> In (CControls, t, v, c) (params_index_of kept_p)).
  { assert (E : forallb (fun e => forallb (fun c => label_mem (CControls, fst e, snd e, c) (params_index_of kept_p)) ["constant"; "x1"]%string)
      (equations kept_model 3) = true) by (vm_compute; reflexivity).
    intros t v c Hin Hc. rewrite forallb_forall in E. specialize (E (t, v) Hin). rewrite forallb_forall in E. specialize (E c Hc).
    refine (proj1 (label_mem_In _ (params_index_of kept_p)) E). }
  eexists ar, ps, _, ar', ps', _.
  split; [exact H|]. split; [exact (parameter_values_exist _ _ Hnd (map_length _ _))|].
  split; [exact H'|]. split; [exact (parameter_values_exist _ _ Hnd (map_length _ _))|].
  split; [exact kept_clean|]. split; [|split; [|split; [exact unit_other_units|split]]].
  - apply unit_nondegenerate; [exact Hnd|]. intros t f Ht Hf.
    refine (proj2 (In_params_index kept_model kept_p _ (proj1 kept_setting) kept_model_accepted) _).
    exact (par_shock_sd kept_model t f 3 (proj1 (proj2 (proj2 kept_setting))) Ht Hf).
  - replace (o_sigma_points_scale (p_options kept_p)) with 2%Q by (vm_compute; reflexivity). unfold Q2R. cbn. lra.
  - apply unit_converted; [exact Hnd|]. intros t v Hin. split; apply Hc; cbn [In]; tauto.
  - apply unit_anchors; [exact Hnd| |].
    + intros t v Hin. apply Hc; cbn [In]; tauto.
    + intros t fo Ht Hfo. assert (E : forallb (fun t => forallb (fun fo => existsb (fun e => (fst e =? t)%nat && String.eqb (snd e) (copy_name fo)) (equations kept_model 3))
        (outcomes_of kept_model)) (seq 0 3) = true) by (vm_compute; reflexivity).
      rewrite forallb_forall in E. specialize (E t (proj2 (in_seq 3 0 t) ltac:(lia))). rewrite forallb_forall in E. specialize (E fo Hfo).
      apply existsb_exists in E as ([s v] & Hin & E). apply andb_true_iff in E as [E1 E2]. cbn [fst snd] in E1, E2.
      apply Nat.eqb_eq in E1 as ->. apply String.eqb_eq in E2 as ->. exact Hin.
Qed.
