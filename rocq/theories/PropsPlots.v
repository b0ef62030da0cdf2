(** Theorems about the plots of transition equations (C81 - C83). *)
Require Import Reals Qreals String Arith ZArith Bool List Lia Lra Permutation Sorted.
From Verif Require Import PyBase ListFacts StringFacts ModelSpec ProcessModel CheckModel SpecModel ProcessModelFacts
  SpecParse SpecIndex IndexFacts ParamsIndex ParseParams ParamsVec ExampleModels PropsSpec ParseFacts AnchorFacts PropsParse
  ProcessData SpecData PropsData RSum Kalman SpecKalman KalmanFacts QRWitness Likelihood
  SpecLikelihood LikelihoodFacts LikelihoodRun PropsLikelihood
  DebugData SpecDebug DebugFacts PropsDebug PropsFiltered TransitionFunctions SpecTransition PropsTransition
  Simulate PropsSimulateInputs TransitionPlots SpecPlots PlotFacts PlotDataFacts.
Import ListNotations.
Open Scope string_scope.
Open Scope list_scope.
Open Scope nat_scope.

(** ** One plot *)

Section OnePlot.
  Variable nan : R.
  Variable custom : string -> dict R -> dict R -> list R -> result R.
  Variables (md : model_dict) (params : list (label * R)) (t : nat) (o i : string).
  Variable tf : dict (list R) -> list R -> result R.
  Variable tp : dict (list R).
  Let all := latent_of md ++ observed_of md.
  Hypothesis Htf : forall state, (exists y, tf tp (map state all) = Ok y) /\
    forall y, tf tp (map state all) = Ok y -> next_value md custom params t o state y.

  Definition row_state (x : R) (others : dict R) (f : string) : R :=
    if String.eqb f i then x else match dget others f with Some v => v | None => nan end.

  Lemma input_row_state x others : input_row nan all i x others = map (row_state x others) all.
  Proof. reflexivity. Qed.

  (** The values of the other factors are determined. *)
  Variables (other : string -> R -> Prop) (others : dict R).
  Hypothesis Hother : forall g, In g all -> g <> i ->
    exists v, dget others g = Some v /\ other g v /\ forall w, other g w -> w = v.

  Lemma point_value x y : tf tp (input_row nan all i x others) = Ok y ->
    next_value_at md custom params t o i other x y.
  Proof.
    intros H. rewrite input_row_state in H. split.
    - exists (row_state x others). unfold row_state. split; [now rewrite String.eqb_refl|].
      intros g Hg Hne. rewrite (proj2 (String.eqb_neq _ _) Hne).
      destruct (Hother g Hg Hne) as (v & -> & Hv & _). exact Hv.
    - intros state [Hi Hs]. apply Htf.
      rewrite <- H. f_equal. apply map_ext_in. intros g Hg. unfold row_state.
      destruct (String.eqb_spec g i) as [->|Hne]; [exact Hi|].
      destruct (Hother g Hg Hne) as (v & -> & _ & Hu). apply Hu. now apply Hs.
  Qed.

  Lemma curve_total lo hi n : exists xy,
    evaluate nan tf all i tp (linspace lo hi n) others = Ok xy /\
    is_curve lo hi n (next_value_at md custom params t o i other) xy.
  Proof.
    destruct (evaluate_total nan tf all i tp (linspace lo hi n) others) as [xy Hxy].
    { intros x _. rewrite input_row_state. apply Htf. }
    exists xy. split; [exact Hxy|]. eapply evaluate_curve; [exact Hxy|]. intros x y H. now apply point_value.
  Qed.
End OnePlot.

Lemma In_other all i g : In g (other_factors all i) <-> In g all /\ g <> i.
Proof.
  unfold other_factors. rewrite filter_In. now rewrite negb_true_iff, String.eqb_neq.
Qed.

(** ** The setting *)

Lemma merge_nothing states t obs : merge_observed states t [] obs = states.
Proof.
  unfold merge_observed. cbn [position_of]. destruct states as [c rows]. cbn [tb_columns tb_rows].
  rewrite app_nil_r. f_equal. change (map (fun x : string -> cell => x) rows = rows). apply map_id.
Qed.

Lemma last_period md p n : process_model md = Ok p -> has_n_periods md n -> last (l_periods (p_labels p)) 0 = n - 1.
Proof.
  intros Hp Hn. destruct (p_labels_eq md p Hp) as (_ & _ & _ & -> & _).
  destruct (p_dims_eq md p Hp) as (_ & _ & _ & _ & Hn' & Hge). rewrite (has_n_periods_fun md _ _ Hn' Hn) in *.
  now apply last_range.
Qed.

Section Setting.
  Variable qr : qr_function.
  Variables nan neg_inf : R.
  Variable custom : string -> dict R -> dict R -> list R -> result R.
  Hypothesis Hcustom : total_custom custom.
  Variables (md : model_dict) (p : processed) (n : nat) (df : frame R) (ids lv : list Z) (ar : arrays R)
            (vec : list R) (ps : parsed R) (params : list (label * R)).
  Hypothesis H : filter_setting md p n df ids lv ar vec ps params.
  Variable fo : filtered_output.
  Hypothesis Hfo : get_filtered_states qr nan (model_tfunc nan neg_inf custom md (p_labels p)) md df params = Ok fo.
  Variable t : nat.
  Hypothesis Ht : t + 1 < n.

  Let all := latent_of md ++ observed_of md.
  Let n_obs := length ids.
  Let states := fo_anchored fo.

  Lemma set_names : NoDup all /\ ~ In "period" all /\ ~ In "id" all.
  Proof.
    destruct H as (Hl & _ & _ & _ & Hn & _). destruct Hl as (_ & Hg & _). split; [apply Hg|].
    split; apply Hn; simpl; tauto.
  Qed.

  Lemma set_regular : regular md n n_obs states.
  Proof.
    destruct H as (Hl & Hcomp & Hvals & Hev & Hn & Hc & Ho & _). destruct set_names as (_ & N1 & N2).
    assert (M1 : ~ In "period" (latent_of md)) by (intros X; apply N1; apply in_or_app; now left).
    assert (M2 : ~ In "id" (latent_of md)) by (intros X; apply N2; apply in_or_app; now left).
    destruct (C51_get_filtered_states_partial qr nan (model_tfunc nan neg_inf custom md (p_labels p))
                _ _ _ _ _ _ _ _ _ _ Hl Hcomp Hvals Hev M1 M2 Hc Ho) as [Herr Hok].
    destruct (log_likelihood qr nan (model_tfunc nan neg_inf custom md (p_labels p)) p ar true vec) as [out|e] eqn:E.
    - destruct (Hok out eq_refl) as (fo' & recs & E1 & _ & E2 & E3 & _). rewrite Hfo in E1. injection E1 as <-.
      exact (anchored_regular md n n_obs recs params _ _ M1 M2 E2 E3).
    - specialize (Herr e eq_refl). rewrite Hfo in Herr. exfalso. exact (ok_not_err _ _ Herr).
  Qed.

  Lemma set_n_obs : 0 < n_obs.
  Proof.
    destruct H as (_ & _ & _ & _ & _ & _ & _ & Hne). unfold n_obs. destruct ids; [contradiction|simpl; lia].
  Qed.

  Lemma set_observed : length (ar_observed ar) = n /\ length (nth t (ar_observed ar) []) = n_obs /\
    forall row, In row (nth t (ar_observed ar) []) -> length row = length (observed_of md).
  Proof.
    destruct H as ((Hd & _ & Har & _) & _).
    destruct (C29_controls_and_observed_by_label 1%R req md p n df ids lv true ar) as (_ & Hl & Hs & _).
    { intros x y. apply req_spec. } { exact Hd. } { exact Har. }
    split; [exact Hl|]. apply Hs. apply nth_In. lia.
  Qed.

  Lemma set_states_data :
    get_states_data p t df states = Ok (the_data md ar t states).
  Proof.
    destruct H as ((Hd & _ & Har & _) & _). assert (Hp : process_model md = Ok p) by apply Hd.
    unfold get_states_data, the_data. destruct (p_labels_eq md p Hp) as (_ & E & _). rewrite E.
    destruct (observed_of md) as [|g l] eqn:Eo; [now rewrite merge_nothing|].
    rewrite Har. cbn [rbind]. destruct set_observed as (Hlen & _ & _).
    unfold nth_err. destruct (nth_error (ar_observed ar) t) as [obs|] eqn:En; [|apply nth_error_None in En; lia].
    cbn [rbind]. now rewrite (nth_of_nth_error _ _ _ [] En).
  Qed.

  Lemma set_params : exists ps1,
    (do params <- reindex_params nan params (params_index_of p);
     parse_for 0%R 1%R ln p (map snd params) 1) = Ok ps1 /\
    parse_for 0%R 1%R ln p vec 1 = Ok ps1.
  Proof.
    destruct H as ((Hd & Hg & Har & Hlen & Hps) & Hcomp & Hvals & _ & _ & Hc & _).
    destruct Hd as (Hwf & Hp & Hn & _).
    destruct (parse_for_needs R 0%R 1%R ln md p n (length ids) vec Hp Hn Hlen ps Hps) as [Hn2 Hm1].
    pose proof (idx_NoDup md p Hwf Hg Hp) as Hnd.
    destruct (C09_parsing_succeeds R 0%R 1%R ln md p n 1 vec Hwf (idx_NoDup md p Hwf Hg Hp) Hp Hn Hlen Hc Hn2 Hm1) as [ps1 E1].
    exists ps1. split; [|exact E1]. rewrite (reindex_by_label nan params _ (proj1 Hcomp)). cbn [rbind].
    rewrite map_map. cbn [snd]. rewrite <- E1. f_equal.
    rewrite (val_of_map 0%R (params_index_of p) vec Hnd Hlen) at 1. apply map_ext_in. intros lb Hlb.
    assert (Hl : labelled (params_index_of p) vec lb (val_of 0%R (params_index_of p) vec lb)).
    { rewrite (val_of_map 0%R (params_index_of p) vec Hnd Hlen) at 1. now apply labelled_values. }
    apply Hvals in Hl. apply (proj2 (row_value_In params lb _ (proj1 Hcomp))) in Hl. now rewrite Hl.
  Qed.

  (** The limits of all axes. *)
  Variable ranges : option state_ranges.
  Hypothesis Hranges : ranges_given md ranges t.
  Hypothesis Hvalues : forall g, In g all -> numbers (values_of (the_rows md ar t states) g) <> [].

  Lemma set_ranges : exists rg,
    match ranges with
    | Some r => Ok r
    | None => create_state_ranges (the_data md ar t states) (l_all (p_labels p))
    end = Ok rg /\
    forall g, In g all -> exists lo hi, state_range rg g t = Ok (Some lo, Some hi) /\
      axis_limits ranges (numbers (values_of (the_rows md ar t states) g)) t g lo hi.
  Proof.
    destruct ranges as [r|].
    - exists r. split; [reflexivity|]. intros g Hg.
      destruct (Hranges r g eq_refl Hg) as (rows & lo & hi & K1 & K2 & K3). exists lo, hi.
      split; [now apply (user_range r g t rows)|]. exists rows. auto.
    - assert (Hp : process_model md = Ok p) by apply H. rewrite (all_eq md p Hp).
      destruct set_names as (N1 & N2 & N3).
      destruct (default_ranges md ar n n_obs t states N1 N2 set_regular) as (rg & E & Hrg).
      { lia. } { exact set_n_obs. } { intros _. apply set_observed. }
      exists rg. split; [exact E|]. intros g Hg. apply Hrg; [exact Hg|]. now apply Hvalues.
  Qed.

  (** The values of the observed factors in the array are those of the rows. *)
  Lemma values_known :
    (forall j, j < length (observed_of md) ->
       exists row x, In row (nth t (ar_observed ar) []) /\ nth j row None = Some x) ->
    forall g, In g all -> numbers (values_of (the_rows md ar t states) g) <> [].
  Proof.
    intros Hj g Hg. destruct set_names as (N1 & N2 & N3). apply in_app_or in Hg as [Hg|Hg].
    - apply (latent_numbers md ar n n_obs t states N1 N2 set_regular); [lia|exact set_n_obs|intros _; apply set_observed|exact Hg].
    - apply In_nth_error in Hg as [j E].
      rewrite (observed_cell md ar n n_obs t states N1 N2 set_regular ltac:(lia) set_n_obs (fun _ => proj1 (proj2 set_observed)) g j E).
      destruct (Hj j) as (row & x & Hin & Hx). { apply nth_error_Some. congruence. }
      intros E0. assert (Hx' : In x (numbers (map (fun row => nth j row None) (nth t (ar_observed ar) [])))).
      { unfold numbers. apply in_flat_map. exists (Some x). split; [|now left]. apply in_map_iff. eauto. }
      rewrite E0 in Hx'. destruct Hx'.
  Qed.

  Lemma set_values g : In g all -> forall xs,
    period_values md ar states t g xs <-> xs = numbers (values_of (the_rows md ar t states) g).
  Proof.
    intros Hg xs. destruct set_names as (N1 & N2 & N3). assert (Ht' : t < n) by lia. split.
    - apply (period_values_inv md ar n n_obs t states N1 N2 set_regular Ht' set_n_obs (fun _ => proj1 (proj2 set_observed))).
    - intros ->.
      apply (period_values_rows md ar n n_obs t states N1 N2 set_regular Ht' set_n_obs (fun _ => proj1 (proj2 set_observed))).
      exact Hg.
  Qed.

  (** All plots are computed with the same data, parameters and ranges. *)
  Lemma set_start sample arg n_points n_draws : exists ps1 rg,
    parse_for 0%R 1%R ln p vec 1 = Ok ps1 /\
    (forall g, In g all -> exists lo hi, state_range rg g t = Ok (Some lo, Some hi) /\
       axis_limits ranges (numbers (values_of (the_rows md ar t states) g)) t g lo hi) /\
    get_transition_plots qr nan neg_inf custom sample md params df t ranges arg n_points n_draws
    = mapM (fun oi =>
        do coeffs <- dget_err (ps_transition ps1) (fst oi);
        do coeffs <- nth_err coeffs t;
        do rows <- match process_quantiles arg with
                   | Some qs =>
                       prepare_fixed_quantile nan (individual_function nan neg_inf custom md (p_labels p) (fst oi)) all (snd oi)
                         [(fst oi, coeffs)] (the_data md ar t states) rg t qs n_points
                   | None =>
                       prepare_average nan (individual_function nan neg_inf custom md (p_labels p) (fst oi)) all (snd oi)
                         [(fst oi, coeffs)] (sample (fst oi) (snd oi)) (the_data md ar t states) rg t n_points n_draws
                   end;
        Ok ((snd oi, fst oi),
            px_line (match process_quantiles arg with Some qs => 1 <? length qs | None => false end) rows))
      (list_prod (latent_of md) all).
  Proof.
    assert (Hd : data_setting md p n df ids lv) by apply H.
    assert (Hp : process_model md = Ok p) by apply Hd. assert (Hn : has_n_periods md n) by apply Hd.
    destruct set_params as (ps1 & Eps & Eps1). destruct set_ranges as (rg & Erg & Hrg).
    exists ps1, rg. split; [exact Eps1|]. split; [exact Hrg|].
    unfold get_transition_plots. rewrite Hp. cbn [rbind].
    rewrite (last_period md p n Hp Hn). destruct (Nat.leb_spec (n - 1) t) as [F|_]; [lia|].
    rewrite Hfo. cbn [rbind]. unfold get_dictionary_with_plots. cbv zeta. fold states.
    rewrite set_states_data. cbn [rbind].
    apply rbind_ok in Eps as (rows & Er & Eps). rewrite Er. cbn [rbind]. rewrite Eps. cbn [rbind].
    rewrite Erg. cbn [rbind]. rewrite (all_eq md p Hp). fold all. destruct (p_labels_eq md p Hp) as (El & _). rewrite El.
    reflexivity.
  Qed.

  (** The error of the first plot, if it is the same for all coefficients. *)
  Lemma set_error sample arg n_points n_draws e :
    (forall o i tf row rg lo hi,
       (forall state, exists y, tf [(o, row)] (map state all) = Ok y) ->
       state_range rg i t = Ok (Some lo, Some hi) ->
       period_rows (the_data md ar t states) t all = Ok (the_rows md ar t states) ->
       match process_quantiles arg with
       | Some qs => prepare_fixed_quantile nan tf all i [(o, row)] (the_data md ar t states) rg t qs n_points
       | None => prepare_average nan tf all i [(o, row)] (sample o i) (the_data md ar t states) rg t n_points n_draws
       end = Err e) ->
    get_transition_plots qr nan neg_inf custom sample md params df t ranges arg n_points n_draws = Err e.
  Proof.
    intros Hone.
    assert (Hd : data_setting md p n df ids lv) by apply H.
    assert (Hp : process_model md = Ok p) by apply Hd. assert (Hwf : wf_dicts md) by apply Hd.
    assert (Hn : has_n_periods md n) by apply Hd. assert (Hg : good_names md) by apply H.
    assert (Hlen : length vec = length (params_index_of p)) by apply H.
    assert (Hcomp : complete_params p params) by apply H.
    assert (Hvals : forall lb x, labelled (params_index_of p) vec lb x -> has_value params lb x) by apply H.
    destruct (set_start sample arg n_points n_draws) as (ps1 & rg & Eps1 & Hrg & ->).
    assert (Hne : exists f, In f (latent_of md)).
    { destruct Hn as [(o & fs & Hin & _) _]. exists o. apply in_map_iff. exists (o, fs). auto. }
    destruct (list_prod (latent_of md) all) as [|[o i] l] eqn:E.
    { exfalso. destruct Hne as [o Ho].
      assert (Hin : In (o, o) (list_prod (latent_of md) all)).
      { apply in_prod; [exact Ho|]. apply in_or_app. now left. }
      rewrite E in Hin. destruct Hin. }
    assert (Hoi : In (o, i) (list_prod (latent_of md) all)) by (rewrite E; now left).
    apply in_prod_iff in Hoi as [Ho Hi]. apply in_map_iff in Ho as ([o' fs] & Eo & Hin). cbn [fst] in Eo. subst o'.
    destruct (plot_transition nan neg_inf custom Hcustom md p n vec params ps1 1 Hwf Hg Hp Hn Hlen Eps1 Hcomp Hvals
                t o fs Ht Hin) as (coeffs & row & E1 & E2 & Htf).
    destruct (Hrg i Hi) as (lo & hi & Erange & _).
    cbn [mapM fst snd]. rewrite E1. cbn [rbind]. rewrite E2. cbn [rbind].
    rewrite (Hone o i (individual_function nan neg_inf custom md (p_labels p) o) row rg lo hi); [reflexivity| |exact Erange|].
    - intros state. apply Htf.
    - apply period_rows_ok. intros g Hgin. exact (the_data_columns md ar n n_obs t states set_regular g Hgin).
  Qed.

  (** All plots, given what holds for each of them. *)
  Lemma set_plots sample arg n_points n_draws (P : string -> string -> list line -> Prop) :
    (forall o i tf row rg lo hi,
       In o (latent_of md) -> In i all ->
       (forall state, (exists y, tf [(o, row)] (map state all) = Ok y) /\
          forall y, tf [(o, row)] (map state all) = Ok y -> next_value md custom params t o state y) ->
       state_range rg i t = Ok (Some lo, Some hi) ->
       axis_limits ranges (numbers (values_of (the_rows md ar t states) i)) t i lo hi ->
       period_rows (the_data md ar t states) t all = Ok (the_rows md ar t states) ->
       exists pts,
         match process_quantiles arg with
         | Some qs => prepare_fixed_quantile nan tf all i [(o, row)] (the_data md ar t states) rg t qs n_points
         | None => prepare_average nan tf all i [(o, row)] (sample o i) (the_data md ar t states) rg t n_points n_draws
         end = Ok pts /\
         P i o (px_line (match process_quantiles arg with Some qs => 1 <? length qs | None => false end) pts)) ->
    exists plots,
      get_transition_plots qr nan neg_inf custom sample md params df t ranges arg n_points n_draws = Ok plots /\
      map (fun kv => (snd (fst kv), fst (fst kv))) plots = list_prod (latent_of md) all /\
      forall i o lines, In ((i, o), lines) plots -> P i o lines.
  Proof.
    intros Hone.
    assert (Hd : data_setting md p n df ids lv) by apply H.
    assert (Hp : process_model md = Ok p) by apply Hd. assert (Hwf : wf_dicts md) by apply Hd.
    assert (Hn : has_n_periods md n) by apply Hd. assert (Hg : good_names md) by apply H.
    assert (Hlen : length vec = length (params_index_of p)) by apply H.
    assert (Hcomp : complete_params p params) by apply H.
    assert (Hvals : forall lb x, labelled (params_index_of p) vec lb x -> has_value params lb x) by apply H.
    destruct (set_start sample arg n_points n_draws) as (ps1 & rg & Eps1 & Hrg & ->).
    match goal with |- context [mapM ?f ?l] =>
      assert (G : forall oi, In oi l -> exists lines, f oi = Ok ((snd oi, fst oi), lines) /\ P (snd oi) (fst oi) lines)
    end.
    { intros [o i] Hin. apply in_prod_iff in Hin as [Ho Hi]. cbn [fst snd].
      pose proof Ho as Ho'. apply in_map_iff in Ho as ([o' fs] & Eo & Hin). cbn [fst] in Eo. subst o'.
      destruct (plot_transition nan neg_inf custom Hcustom md p n vec params ps1 1 Hwf Hg Hp Hn Hlen Eps1 Hcomp Hvals
                  t o fs Ht Hin) as (coeffs & row & E1 & E2 & Htf).
      rewrite E1. cbn [rbind]. rewrite E2. cbn [rbind].
      destruct (Hrg i Hi) as (lo & hi & Erange & Hlim).
      destruct (Hone o i (individual_function nan neg_inf custom md (p_labels p) o) row rg lo hi Ho' Hi Htf Erange Hlim)
        as (pts & Epts & HP).
      { apply period_rows_ok. intros g Hgin. exact (the_data_columns md ar n n_obs t states set_regular g Hgin). }
      rewrite Epts. cbn [rbind]. eexists. split; [reflexivity|exact HP]. }
    match goal with |- context [mapM ?f ?l] => destruct (mapM_total f l) as [plots Epl] end.
    { intros oi Hoi. destruct (G oi Hoi) as (lines & E & _). eauto. }
    exists plots. split; [exact Epl|]. split.
    - apply mapM_ok in Epl. clear -Epl G. induction Epl as [|oi kv l l' E _ IH]; [reflexivity|].
      cbn [map]. f_equal.
      + destruct (G oi) as (lines & E' & _); [now left|]. rewrite E in E'. injection E' as ->. cbn [fst snd].
        now destruct oi.
      + apply IH. intros oi' Hin. apply G. now right.
    - intros i o lines Hin. apply (mapM_In_inv _ _ _ _ Epl) in Hin as (oi & E & Hoi).
      destruct (G oi Hoi) as (lines' & E' & Hok). rewrite E in E'. injection E' as -> -> ->. exact Hok.
  Qed.
End Setting.

(** ** Fixed quantiles *)

Lemma single_color (qs : list R) : qs <> [] -> (1 <? length qs) = negb (length qs =? 1).
Proof. destruct qs as [|a [|b l]]; [contradiction|reflexivity|reflexivity]. Qed.

Section Fixed.
  Variable nan : R.
  Variable custom : string -> dict R -> dict R -> list R -> result R.
  Variables (md : model_dict) (params : list (label * R)) (t : nat) (o i : string).
  Variable tf : dict (list R) -> list R -> result R.
  Variable tp : dict (list R).
  Let all := latent_of md ++ observed_of md.
  Hypothesis Htf : forall state, (exists y, tf tp (map state all) = Ok y) /\
    forall y, tf tp (map state all) = Ok y -> next_value md custom params t o state y.
  Variables (rows : list (string -> cell)) (values : string -> list R -> Prop).
  Hypothesis Hvalues : forall g, In g all -> numbers (values_of rows g) <> [] /\
    forall xs, values g xs <-> xs = numbers (values_of rows g).

  Definition at_quantile (q : R) (g : string) (v : R) : Prop := exists xs, values g xs /\ is_quantile xs q v.

  Lemma quantile_others q : (0 <= q <= 1)%R -> forall g, In g all -> g <> i -> exists v,
    dget (map (fun f => (f, to_number nan (pd_quantile q (values_of rows f)))) (other_factors all i)) g = Some v /\
    at_quantile q g v /\ forall w, at_quantile q g w -> w = v.
  Proof.
    intros Hq g Hg Hne. rewrite (dget_map_key (fun f => to_number nan (pd_quantile q (values_of rows f)))).
    2:{ now apply In_other. }
    destruct (Hvalues g Hg) as [Hn Hv]. destruct (pd_quantile_ok q _ Hq Hn) as (v & -> & Hq').
    exists v. split; [reflexivity|]. split.
    - exists (numbers (values_of rows g)). split; [now apply Hv|exact Hq'].
    - intros w (xs & Hxs & Hw). apply Hv in Hxs. subst xs. exact (is_quantile_unique _ _ _ _ Hw Hq').
  Qed.

  Lemma quantile_curves lo hi n qs : (forall q, In q qs -> (0 <= q <= 1)%R) ->
    exists curves, length curves = length qs /\
      mapM (fun q =>
        if Rle_dec 0 q then
          if Rle_dec q 1 then
            let fixed := map (fun f => (f, to_number nan (pd_quantile q (values_of rows f)))) (other_factors all i) in
            do xy <- evaluate nan tf all i tp (linspace lo hi n) fixed;
            Ok (map (fun xy => mk_point (fst xy) (snd xy) (Some q)) xy)
          else Err ValueError
        else Err ValueError) qs
      = Ok (map (fun qc => curve_rows (fst qc) (snd qc)) (combine qs curves)) /\
      forall k q c, nth_error qs k = Some q -> nth_error curves k = Some c ->
        is_curve lo hi n (next_value_at md custom params t o i (at_quantile q)) c.
  Proof.
    induction qs as [|q qs IH]; intros Hq.
    - exists []. split; [reflexivity|]. split; [reflexivity|]. intros [|k]; discriminate.
    - destruct IH as (curves & Hl & Hm & Hc). { intros q' Hq'. apply Hq. now right. }
      assert (Hq0 : (0 <= q <= 1)%R) by (apply Hq; now left).
      destruct (curve_total nan custom md params t o i tf tp Htf (at_quantile q) _ (quantile_others q Hq0) lo hi n)
        as (xy & Exy & Hxy).
      exists (xy :: curves). split; [simpl; congruence|]. split.
      + cbn [mapM]. destruct (Rle_dec 0 q) as [_|F]; [|lra]. destruct (Rle_dec q 1) as [_|F]; [|lra].
        cbv zeta. fold all in Exy. rewrite Exy. cbn [rbind]. cbv zeta in Hm. rewrite Hm. reflexivity.
      + intros [|k] q' c E1 E2; cbn in E1, E2.
        * injection E1 as <-. injection E2 as <-. exact Hxy.
        * exact (Hc k q' c E1 E2).
  Qed.

  (** The lines of a plot. *)
  Lemma quantile_lines lo hi n qs : 1 <= n -> qs <> [] -> NoDup qs -> (forall q, In q qs -> (0 <= q <= 1)%R) ->
    forall tb rg, period_rows tb t all = Ok rows -> state_range rg i t = Ok (Some lo, Some hi) ->
    exists pts, prepare_fixed_quantile nan tf all i tp tb rg t qs n = Ok pts /\
      let lines := px_line (1 <? length qs) pts in
      length lines = length qs /\
      forall k q, nth_error qs k = Some q -> exists curve,
        nth_error lines k = Some (mk_line (if length qs =? 1 then None else Some q) curve) /\
        is_curve lo hi n (next_value_at md custom params t o i (at_quantile q)) curve.
  Proof.
    intros Hn Hne Hnd Hq tb rg Hrows Hrg.
    destruct (quantile_curves lo hi n qs Hq) as (curves & Hl & Hm & Hc).
    unfold prepare_fixed_quantile. rewrite Hrows. cbn [rbind]. rewrite Hrg. cbn [rbind fst snd to_number].
    cbv zeta in *. rewrite Hm. cbn [rbind].
    exists (concat (map (fun qc => curve_rows (fst qc) (snd qc)) (combine qs curves))). split.
    { destruct qs as [|q0 qs]; [contradiction|]. destruct curves as [|c0 curves]; [discriminate|]. reflexivity. }
    rewrite (single_color qs Hne). destruct (length qs =? 1) eqn:E1.
    - apply Nat.eqb_eq in E1. destruct qs as [|q0 [|q1 qs]]; try discriminate.
      destruct curves as [|c0 [|c1 curves]]; try discriminate. cbn [negb px_line length].
      split; [reflexivity|]. intros [|k] q Hk; [|destruct k; discriminate]. injection Hk as <-.
      exists c0. split; [|now apply (Hc 0 q0 c0)].
      cbn [combine map concat fst snd nth_error]. rewrite app_nil_r. unfold curve_rows. rewrite map_map.
      do 2 f_equal. rewrite <- (map_id c0) at 2. apply map_ext. now intros [x y].
    - cbn [negb]. rewrite (px_line_quantiles n qs curves Hn Hl Hnd).
      + split; [rewrite map_length, combine_length; lia|]. intros k q Hk.
        destruct (nth_error curves k) as [c|] eqn:Ec.
        2:{ apply nth_error_None in Ec. assert (k < length qs) by (apply nth_error_Some; congruence). lia. }
        exists c. split; [|now apply (Hc k q c)]. rewrite nth_error_map.
        now rewrite (proj2 (nth_error_combine _ _ k q c) (conj Hk Ec)).
      + intros c Hin. apply In_nth_error in Hin as [k Hk].
        destruct (nth_error qs k) as [q|] eqn:Eq.
        2:{ apply nth_error_None in Eq. assert (k < length curves) by (apply nth_error_Some; congruence). lia. }
        apply (Hc k q c Eq Hk).
  Qed.
End Fixed.

(** * C81 *)

(** The numbers of the observed factors that the filter gets. *)
Definition observed_in (md : model_dict) (ar : arrays R) (t : nat) : Prop :=
  forall j, j < length (observed_of md) ->
    exists row x, In row (nth t (ar_observed ar) []) /\ nth j row None = Some x.

(** If the states can be filtered, there is a plot for each input and output factor. It
    has one line per quantile; it shows for equally spaced values of the input between
    the limits of the axis what the transition equation of the output gives if the other
    factors are at their quantile in the period. *)
Theorem C81_fixed_quantiles :
  forall qr nan neg_inf custom sample md p n df ids lv ar vec ps params,
    total_custom custom ->
    filter_setting md p n df ids lv ar vec ps params ->
    forall fo t, t + 1 < n ->
    get_filtered_states qr nan (model_tfunc nan neg_inf custom md (p_labels p)) md df params = Ok fo ->
    observed_in md ar t ->
    forall ranges arg qs n_points n_draws,
    ranges_given md ranges t ->
    (exists q, arg = OneQuantile q /\ qs = [q]) \/ arg = Quantiles qs ->
    qs <> [] -> NoDup qs -> (forall q, In q qs -> (0 <= q <= 1)%R) -> 1 <= n_points ->
    exists plots,
      get_transition_plots qr nan neg_inf custom sample md params df t ranges arg n_points n_draws = Ok plots /\
      map (fun kv => (snd (fst kv), fst (fst kv))) plots
        = list_prod (latent_of md) (latent_of md ++ observed_of md) /\
      forall i o lines, In ((i, o), lines) plots ->
        exists xs lo hi,
          period_values md ar (fo_anchored fo) t i xs /\ axis_limits ranges xs t i lo hi /\
          length lines = length qs /\
          forall k q, nth_error qs k = Some q -> exists curve,
            nth_error lines k = Some (mk_line (if length qs =? 1 then None else Some q) curve) /\
            is_curve lo hi n_points
              (next_value_at md custom params t o i
                 (fun g v => exists ys, period_values md ar (fo_anchored fo) t g ys /\ is_quantile ys q v))
              curve.
Proof.
  intros qr nan neg_inf custom sample md p n df ids lv ar vec ps params Hcustom H fo t Ht Hfo Hobs
    ranges arg qs n_points n_draws Hranges Harg Hne Hnd Hq Hnp.
  assert (Eper : process_quantiles arg = Some qs).
  { destruct Harg as [(q & -> & ->)| ->]; reflexivity. }
  pose proof (values_known qr nan neg_inf custom md p n df ids lv ar vec ps params H fo Hfo t Ht Hobs) as Hknown.
  pose proof (set_values qr nan neg_inf custom md p n df ids lv ar vec ps params H fo Hfo t Ht) as Hv.
  refine (set_plots qr nan neg_inf custom Hcustom md p n df ids lv ar vec ps params H fo Hfo t Ht ranges Hranges Hknown
            sample arg n_points n_draws
            (fun i o lines => exists xs lo hi,
               period_values md ar (fo_anchored fo) t i xs /\ axis_limits ranges xs t i lo hi /\
               length lines = length qs /\
               forall k q, nth_error qs k = Some q -> exists curve,
                 nth_error lines k = Some (mk_line (if length qs =? 1 then None else Some q) curve) /\
                 is_curve lo hi n_points
                   (next_value_at md custom params t o i
                      (fun g v => exists ys, period_values md ar (fo_anchored fo) t g ys /\ is_quantile ys q v))
                   curve) _).
  intros o i tf row rg lo hi Ho Hi Htf Erange Hlim Hrows. rewrite Eper.
  destruct (quantile_lines nan custom md params t o i tf [(o, row)] Htf
              (the_rows md ar t (fo_anchored fo)) (period_values md ar (fo_anchored fo) t)
              (fun g Hg => conj (Hknown g Hg) (Hv g Hg))
              lo hi n_points qs Hnp Hne Hnd Hq (the_data md ar t (fo_anchored fo)) rg Hrows Erange) as (pts & Epts & Hlines).
  exists pts. split; [exact Epts|].
  exists (numbers (values_of (the_rows md ar t (fo_anchored fo)) i)), lo, hi.
  split; [now apply Hv|]. split; [exact Hlim|]. exact Hlines.
Qed.
Print Assumptions C81_fixed_quantiles.

(** * C82 *)

(** [DataFrame.sample(n)] takes different rows at random. *)
Definition takes_sample (sample : string -> string -> nat -> nat -> list nat) : Prop :=
  forall o i n m, n <= m ->
    length (sample o i n m) = n /\ NoDup (sample o i n m) /\ forall k, In k (sample o i n m) -> k < m.

(** [ys] are numbers with the average [y]. *)
Definition average_of (ys : list R) (y : R) : Prop :=
  (y * INR (length ys) = fold_right Rplus 0 ys)%R.

Section Average.
  Variable nan : R.
  Variable custom : string -> dict R -> dict R -> list R -> result R.
  Variables (md : model_dict) (params : list (label * R)) (t : nat) (o i : string).
  Variable tf : dict (list R) -> list R -> result R.
  Variable tp : dict (list R).
  Let all := latent_of md ++ observed_of md.
  Hypothesis Htf : forall state, (exists y, tf tp (map state all) = Ok y) /\
    forall y, tf tp (map state all) = Ok y -> next_value md custom params t o state y.
  Variables (rows : list (string -> cell)) (value : nat -> string -> R -> Prop).
  Hypothesis Hvalue : forall k row g, nth_error rows k = Some row -> In g all ->
    exists v, number_of (row g) = Some v /\ value k g v /\ forall w, value k g w -> w = v.

  Definition draw_others (k : nat) : dict R :=
    map (fun f => (f, to_number nan (number_of (nth k rows (fun _ => CNan) f)))) (other_factors all i).

  Definition draw_output (k : nat) (x : R) : R :=
    match tf tp (input_row nan all i x (draw_others k)) with Ok y => y | Err _ => nan end.

  Lemma draw_output_ok k x : k < length rows ->
    tf tp (input_row nan all i x (draw_others k)) = Ok (draw_output k x) /\
    next_value_at md custom params t o i (value k) x (draw_output k x).
  Proof.
    intros Hk. unfold draw_output. destruct (proj1 (Htf (row_state nan i x (draw_others k)))) as [y Ey].
    change (map (row_state nan i x (draw_others k)) all) with (input_row nan all i x (draw_others k)) in Ey.
    rewrite Ey. split; [reflexivity|].
    apply (point_value nan custom md params t o i tf tp Htf (value k) (draw_others k)); [|exact Ey].
    intros g Hg Hne. unfold draw_others.
    rewrite (dget_map_key (fun f => to_number nan (number_of (nth k rows (fun _ => CNan) f)))).
    2:{ now apply In_other. }
    destruct (nth_error rows k) as [row|] eqn:Er; [|apply nth_error_None in Er; lia].
    rewrite (nth_of_nth_error _ _ _ (fun _ => CNan) Er).
    destruct (Hvalue k row g Er Hg) as (v & -> & Hv & Hu). exists v. auto.
  Qed.

  Lemma draw_curve k grid : k < length rows ->
    evaluate nan tf all i tp grid (draw_others k) = Ok (map (fun x => (x, draw_output k x)) grid).
  Proof.
    intros Hk. unfold evaluate. induction grid as [|x grid IH]; [reflexivity|]. cbn [mapM map].
    rewrite (proj1 (draw_output_ok k x Hk)). cbn [rbind]. now rewrite IH.
  Qed.

  Lemma average_line lo hi n n_draws sample : (lo < hi)%R \/ n <= 1 -> 1 <= n_draws -> n_draws <= length rows ->
    length (sample n_draws (length rows)) = n_draws ->
    (forall k, In k (sample n_draws (length rows)) -> k < length rows) ->
    forall tb rg, period_rows tb t all = Ok rows -> state_range rg i t = Ok (Some lo, Some hi) ->
    exists pts curve, prepare_average nan tf all i tp sample tb rg t n n_draws = Ok pts /\
      px_line false pts = [mk_line None curve] /\
      is_curve lo hi n (fun x y => exists ys, average_of ys y /\
        Forall2 (fun k yk => next_value_at md custom params t o i (value k) x yk)
          (sample n_draws (length rows)) ys) curve.
  Proof.
    intros Hlim Hnd Hlen Hs1 Hs2 tb rg Hrows Hrg. unfold prepare_average. rewrite Hrows. cbn [rbind].
    rewrite (proj2 (Nat.leb_le _ _) Hlen). cbn [rbind]. rewrite Hrg. cbn [rbind fst snd to_number]. cbv zeta.
    set (grid := linspace lo hi n). set (ks := sample n_draws (length rows)) in *.
    assert (Em : mapM (fun draw : string -> cell =>
              evaluate nan tf all i tp grid (map (fun f => (f, to_number nan (number_of (draw f)))) (other_factors all i)))
              (map (fun k => nth k rows (fun _ => CNan)) ks)
            = Ok (map (fun k => map (fun x => (x, draw_output k x)) grid) ks)).
    { clear Hs1. induction ks as [|k ks IH]; [reflexivity|]. cbn [map mapM].
      change (map (fun f => (f, to_number nan (number_of (nth k rows (fun _ => CNan) f)))) (other_factors all i))
        with (draw_others k).
      rewrite (draw_curve k grid) by (apply Hs2; now left). cbn [rbind].
      rewrite IH; [reflexivity|]. intros k' Hk'. apply Hs2. now right. }
    rewrite Em. cbn [rbind].
    assert (Hks : ks <> []). { intros E. rewrite E in Hs1. simpl in Hs1. lia. }
    assert (Ematch : match map (fun k => map (fun x => (x, draw_output k x)) grid) ks with
            | [] => Err ValueError
            | _ :: _ => Ok (map (fun xy => mk_point (fst xy) (snd xy) None)
                 (group_means (concat (map (fun k => map (fun x => (x, draw_output k x)) grid) ks))))
            end = Ok (map (fun xy => mk_point (fst xy) (snd xy) None)
                 (group_means (concat (map (fun k => map (fun x => (x, draw_output k x)) grid) ks))))).
    { destruct ks; [contradiction|reflexivity]. }
    rewrite Ematch, (group_means_grid draw_output grid ks (linspace_sorted lo hi n Hlim) Hks).
    eexists _, _. split; [reflexivity|]. cbn [px_line]. split; [reflexivity|].
    rewrite !map_map. cbn [fst snd]. split; [unfold grid; now rewrite map_length, linspace_length|].
    intros k x y Hk. rewrite nth_error_map in Hk. destruct (nth_error grid k) as [x'|] eqn:Eg; [|discriminate].
    unfold point_xy in Hk. cbn [option_map pt_x pt_y] in Hk. injection Hk as <- <-.
    split; [now apply linspace_spaced|]. exists (map (fun k => draw_output k x') ks). split.
    - unfold average_of, rmean. rewrite map_length, Hs1. field. apply not_0_INR. lia.
    - clear -Hs2 Htf Hvalue. induction ks as [|k0 ks IH]; constructor.
      + apply draw_output_ok. apply Hs2. now left.
      + apply IH. intros k' Hk'. apply Hs2. now right.
  Qed.
End Average.

(** Without quantiles, the line of a plot is the average of the curves of different
    individuals: for each of them the other factors have the values of the individual. *)
Theorem C82_average :
  forall qr nan neg_inf custom sample md p n df ids lv ar vec ps params,
    total_custom custom -> takes_sample sample ->
    filter_setting md p n df ids lv ar vec ps params ->
    forall fo t, t + 1 < n ->
    get_filtered_states qr nan (model_tfunc nan neg_inf custom md (p_labels p)) md df params = Ok fo ->
    (forall row j, In row (nth t (ar_observed ar) []) -> j < length (observed_of md) -> nth j row None <> None) ->
    forall ranges n_points n_draws,
    ranges_given md ranges t ->
    (forall i xs lo hi, In i (latent_of md ++ observed_of md) -> period_values md ar (fo_anchored fo) t i xs ->
       axis_limits ranges xs t i lo hi -> (lo < hi)%R \/ n_points <= 1) ->
    1 <= n_draws <= length ids ->
    exists plots,
      get_transition_plots qr nan neg_inf custom sample md params df t ranges NoQuantiles n_points n_draws = Ok plots /\
      map (fun kv => (snd (fst kv), fst (fst kv))) plots
        = list_prod (latent_of md) (latent_of md ++ observed_of md) /\
      forall i o lines, In ((i, o), lines) plots ->
        exists xs lo hi curve individuals,
          period_values md ar (fo_anchored fo) t i xs /\ axis_limits ranges xs t i lo hi /\
          lines = [mk_line None curve] /\
          length individuals = n_draws /\ NoDup individuals /\ (forall k, In k individuals -> k < length ids) /\
          is_curve lo hi n_points
            (fun x y => exists ys, average_of ys y /\
               Forall2 (fun k yk => next_value_at md custom params t o i
                                      (individual_value md ar (fo_anchored fo) t k) x yk) individuals ys)
            curve.
Proof.
  intros qr nan neg_inf custom sample md p n df ids lv ar vec ps params Hcustom Hsample H fo t Ht Hfo Hobs
    ranges n_points n_draws Hranges Hlims [Hd1 Hd2].
  destruct (set_names md p n df ids lv ar vec ps params H) as (N1 & N2 & N3).
  pose proof (set_regular qr nan neg_inf custom md p n df ids lv ar vec ps params H fo Hfo) as Hreg.
  pose proof (set_n_obs md p n df ids lv ar vec ps params H t Ht) as Hpos.
  destruct (set_observed md p n df ids lv ar vec ps params H t Ht) as (_ & Hol & _).
  assert (Ht' : t < n) by lia.
  assert (Hknown : forall g, In g (latent_of md ++ observed_of md) ->
            numbers (values_of (the_rows md ar t (fo_anchored fo)) g) <> []).
  { apply (values_known qr nan neg_inf custom md p n df ids lv ar vec ps params H fo Hfo t Ht).
    intros j Hj. destruct (nth t (ar_observed ar) []) as [|row rows] eqn:E; [simpl in Hol; lia|].
    destruct (nth j row None) as [x|] eqn:Ex.
    - exists row, x. split; [now left|exact Ex].
    - exfalso. apply (Hobs row j); [now left|exact Hj|exact Ex]. }
  pose proof (set_values qr nan neg_inf custom md p n df ids lv ar vec ps params H fo Hfo t Ht) as Hv.
  pose proof (the_rows_length md ar n (length ids) t (fo_anchored fo) N2 Hreg Ht') as Hrl.
  assert (Hind : forall k row g, nth_error (the_rows md ar t (fo_anchored fo)) k = Some row ->
            In g (latent_of md ++ observed_of md) ->
            exists v, number_of (row g) = Some v /\ individual_value md ar (fo_anchored fo) t k g v /\
              forall w, individual_value md ar (fo_anchored fo) t k g w -> w = v).
  { intros k row g Hk Hg.
    destruct (individual_cell md ar n (length ids) t (fo_anchored fo) N1 N2 Hreg Ht' Hpos (fun _ => Hol) k g row Hg Hk)
      as [I1 I2].
    destruct (number_of (row g)) as [v|] eqn:E.
    - exists v. split; [reflexivity|]. split; [now apply I1|]. intros w Hw. apply I2 in Hw. congruence.
    - exfalso. apply in_app_or in Hg as [Hg|Hg].
      + rewrite (the_rows_eq md ar t (fo_anchored fo) N2) in Hk. rewrite nth_error_map in Hk.
        destruct (nth_error (filter (in_period t) (tb_rows (fo_anchored fo))) k) as [row0|] eqn:E0; [|discriminate].
        injection Hk as <-. destruct (regular_block md n (length ids) (fo_anchored fo) t Hreg Ht') as [_ Hb].
        destruct (Hb k row0 E0) as (_ & _ & _ & Hx). destruct (Hx g Hg) as [x Ex].
        unfold merge_row in E. rewrite position_of_none in E.
        * rewrite Ex in E. discriminate.
        * eapply latent_not_observed; eauto.
      + apply In_nth_error in Hg as [j Hj].
        pose proof (observed_cell md ar n (length ids) t (fo_anchored fo) N1 N2 Hreg Ht' Hpos (fun _ => Hol) g j Hj) as El.
        assert (Ek : nth_error (values_of (the_rows md ar t (fo_anchored fo)) g) k = Some None).
        { unfold values_of. rewrite nth_error_map, Hk. simpl. now rewrite E. }
        rewrite El, nth_error_map in Ek.
        destruct (nth_error (nth t (ar_observed ar) []) k) as [orow|] eqn:Eo; [|discriminate].
        injection Ek as Ek. apply (Hobs orow j); [now apply nth_error_In in Eo| |exact Ek].
        apply nth_error_Some. congruence. }
  refine (set_plots qr nan neg_inf custom Hcustom md p n df ids lv ar vec ps params H fo Hfo t Ht ranges Hranges Hknown
            sample NoQuantiles n_points n_draws
            (fun i o lines => exists xs lo hi curve individuals,
               period_values md ar (fo_anchored fo) t i xs /\ axis_limits ranges xs t i lo hi /\
               lines = [mk_line None curve] /\
               length individuals = n_draws /\ NoDup individuals /\ (forall k, In k individuals -> k < length ids) /\
               is_curve lo hi n_points
                 (fun x y => exists ys, average_of ys y /\
                    Forall2 (fun k yk => next_value_at md custom params t o i
                                           (individual_value md ar (fo_anchored fo) t k) x yk) individuals ys)
                 curve) _).
  intros o i tf row rg lo hi Ho Hi Htf Erange Hlim Hrows. cbn [process_quantiles].
  set (rows := the_rows md ar t (fo_anchored fo)) in *.
  destruct (Hsample o i n_draws (length ids) Hd2) as (S1 & S2 & S3). rewrite <- Hrl in S1, S2, S3.
  destruct (average_line nan custom md params t o i tf [(o, row)] Htf rows
              (individual_value md ar (fo_anchored fo) t) Hind lo hi n_points n_draws (sample o i)) with
      (tb := the_data md ar t (fo_anchored fo)) (rg := rg) as (pts & curve & E1 & E2 & E3); try assumption.
  { apply (Hlims i (numbers (values_of rows i)) lo hi Hi); [|exact Hlim]. now apply Hv. }
  { lia. }
  exists pts. split; [exact E1|].
  exists (numbers (values_of rows i)), lo, hi, curve, (sample o i n_draws (length rows)).
  split; [now apply Hv|]. split; [exact Hlim|]. split; [exact E2|]. split; [exact S1|]. split; [exact S2|].
  split; [intros k Hk; rewrite <- Hrl; now apply S3|]. exact E3.
Qed.
Print Assumptions C82_average.

(** ** An example for C81 and C82: plots of the second period. *)

Lemma ex_kept id : In id ex_ids -> ~ discarded 1%R single_model 3 (real_frame ex_df) ex_lv id 1.
Proof.
  intros Hid [(c & Hc & Hv) (v & Heq & Hv')]. rewrite real_value in Hv, Hv'.
  assert (Ec : c = "x1") by (destruct Hc as [<-|[]]; reflexivity). subst c.
  destruct Hid as [<-|[<-|[<-|[<-|[]]]]]; try discriminate Hv.
  revert Hv'. assert (E : forall w, In (1, w) (equations single_model 3) -> value 1%Z single_model ex_df ex_lv 4%Z 1 w = None).
  { assert (F : forallb (fun tv => negb (fst tv =? 1) || match value 1%Z single_model ex_df ex_lv 4%Z 1 (snd tv) with None => true | Some _ => false end)
                  (equations single_model 3) = true) by (vm_compute; reflexivity).
    rewrite forallb_forall in F. intros w Hw. specialize (F _ Hw). cbn [fst snd] in F. simpl negb in F. cbn [orb] in F.
    destruct (value 1%Z single_model ex_df ex_lv 4%Z 1 w); [discriminate|reflexivity]. }
  rewrite (E v Heq). intros Hx. now apply Hx.
Qed.

Lemma ex_observed ar :
  process_data 1%R req (real_frame ex_df) (p_labels single_p) (p_update single_p) (p_anch single_p) true = Ok ar ->
  forall row j, In row (nth 1 (ar_observed ar) []) -> j < length (observed_of single_model) -> nth j row None <> None.
Proof.
  intros Har row j Hrow Hj.
  destruct (C29_controls_and_observed_by_label 1%R req single_model single_p 3 (real_frame ex_df) ex_ids ex_lv true ar)
    as (_ & Hl & Hs & Hw).
  { intros x y. apply req_spec. } { apply real_setting, single_setting. } { exact Har. }
  destruct (Hs (nth 1 (ar_observed ar) [])) as [Hl1 _]. { apply nth_In. rewrite Hl. lia. }
  apply In_nth_error in Hrow as [i Hi].
  assert (Hlt : i < length ex_ids). { rewrite <- Hl1. apply nth_error_Some. congruence. }
  destruct (nth_error ex_ids i) as [id|] eqn:Eid; [|apply nth_error_None in Eid; lia].
  destruct j as [|j]; [|simpl in Hj; lia].
  destruct (Hw 1 i id 0 "inc" ltac:(lia) Eid eq_refl) as (w & (sheet & E1 & row' & E2 & E3) & Hh).
  rewrite (nth_of_nth_error _ _ _ [] E1), E2 in Hi. injection Hi as <-.
  rewrite (nth_of_nth_error _ _ _ None E3). destruct Hh as [_ Hh].
  rewrite Hh by (apply ex_kept; now apply nth_error_In in Eid). rewrite real_value.
  destruct i as [|[|[|[|i]]]]; cbn in Eid; try (destruct i; discriminate Eid); injection Eid as <-; vm_compute; discriminate.
Qed.

Lemma set_process_data md p n df ids lv ar vec ps params :
  filter_setting md p n df ids lv ar vec ps params ->
  process_data 1%R req df (p_labels p) (p_update p) (p_anch p) true = Ok ar.
Proof. intros H. apply H. Qed.

Definition ex_plot_params : list (label * R) := rev (combine (params_index_of single_p) single_params).

Lemma ex_filter_setting : exists ar ps,
  filter_setting single_model single_p 3 (real_frame ex_df) ex_ids ex_lv ar single_params ps ex_plot_params /\
  forall qr nan tfunc, exists fo, get_filtered_states qr nan tfunc single_model (real_frame ex_df) ex_plot_params = Ok fo.
Proof.
  destruct C51_nonvacuous as ((ar & ps & H1) & H2 & H3 & H4 & _ & _ & H7 & H8 & _ & _ & H9).
  exists ar, ps. split; [|exact H9]. split; [exact H1|]. split; [exact H2|]. split; [exact H3|]. split; [exact H4|].
  split; [|split; [exact H7|split; [exact H8|discriminate]]].
  intros name Hname. destruct Hname as [<-|[<-|[]]]; simpl; intuition discriminate.
Qed.

Definition first_rows : string -> string -> nat -> nat -> list nat := fun _ _ n _ => seq 0 n.
Definition ex_ranges : state_ranges :=
  map (fun g => (g, [(0, (None, None)); (1, (Some 0%R, Some 1%R))])) ["cog"; "soc"; "inc"].

Example C81_C82_nonvacuous :
  total_custom plain_custom /\ takes_sample first_rows /\
  exists ar ps,
    filter_setting single_model single_p 3 (real_frame ex_df) ex_ids ex_lv ar single_params ps ex_plot_params /\
    (forall qr nan tfunc, exists fo,
       get_filtered_states qr nan tfunc single_model (real_frame ex_df) ex_plot_params = Ok fo) /\
    observed_in single_model ar 1 /\
    (forall row j, In row (nth 1 (ar_observed ar) []) -> j < length (observed_of single_model) -> nth j row None <> None) /\
    ranges_given single_model None 1 /\ ranges_given single_model (Some ex_ranges) 1 /\
    (forall i xs lo hi, In i (latent_of single_model ++ observed_of single_model) ->
       axis_limits (Some ex_ranges) xs 1 i lo hi -> (lo < hi)%R) /\
    NoDup [1/4; 1/2]%R /\ length ex_ids = 4.
Proof.
  split. { intros f params env states. unfold plain_custom. destruct (dget params "q"), (dget env "inc"); eauto. }
  split.
  { intros o i n m Hnm. unfold first_rows. rewrite seq_length. split; [reflexivity|]. split; [apply seq_NoDup|].
    intros k Hk. apply in_seq in Hk. lia. }
  destruct ex_filter_setting as (ar & ps & H1 & H2). exists ar, ps. split; [exact H1|]. split; [exact H2|].
  assert (Har : process_data 1%R req (real_frame ex_df) (p_labels single_p) (p_update single_p) (p_anch single_p) true = Ok ar)
    by exact (set_process_data _ _ _ _ _ _ _ _ _ _ H1).
  pose proof (ex_observed ar Har) as Hobs.
  destruct (set_observed single_model single_p 3 (real_frame ex_df) ex_ids ex_lv ar single_params ps ex_plot_params H1 1 ltac:(lia))
    as (_ & Hl & _).
  split.
  { intros j Hj. destruct (nth 1 (ar_observed ar) []) as [|row rows] eqn:E; [discriminate Hl|].
    destruct (nth j row None) as [x|] eqn:Ex.
    - exists row, x. split; [now left|exact Ex].
    - exfalso. apply (Hobs row j); [now left|exact Hj|exact Ex]. }
  split; [exact Hobs|]. split; [intros r g E; discriminate|]. split.
  { intros r g [= <-] Hg. exists [(0, (None, None)); (1, (Some 0%R, Some 1%R))], 0%R, 1%R.
    split; [|split; [repeat constructor; simpl; intuition discriminate|right; now left]].
    apply (dget_map_key (fun _ => [(0, (None, None)); (1, (Some 0%R, Some 1%R))]) ["cog"; "soc"; "inc"]). exact Hg. }
  split.
  { intros i xs lo hi Hi (rows & E & _ & Hin).
    assert (E' : dget ex_ranges i = Some [(0, (None, None)); (1, (Some 0%R, Some 1%R))]).
    { apply (dget_map_key (fun _ => [(0, (None, None)); (1, (Some 0%R, Some 1%R))]) ["cog"; "soc"; "inc"]). exact Hi. }
    rewrite E' in E. injection E as <-. destruct Hin as [Hin|[Hin|[]]]; [discriminate|]. injection Hin as <- <-. lra. }
  split; [|reflexivity]. repeat constructor; simpl; intros X; [destruct X as [X|[]]; lra|tauto].
Qed.

(** * C83 *)

(** Errors are raised for a period without successor, before anything else is
    computed. *)
Theorem C83_last_period :
  forall qr nan neg_inf custom sample md p n params df t ranges arg n_points n_draws,
    process_model md = Ok p -> has_n_periods md n -> n <= t + 1 ->
    get_transition_plots qr nan neg_inf custom sample md params df t ranges arg n_points n_draws = Err ValueError.
Proof.
  intros qr nan neg_inf custom sample md p n params df t ranges arg n_points n_draws Hp Hn Ht.
  unfold get_transition_plots. rewrite Hp. cbn [rbind]. rewrite (last_period md p n Hp Hn).
  destruct (Nat.leb_spec (n - 1) t) as [_|F]; [reflexivity|lia].
Qed.
Print Assumptions C83_last_period.

(** In the setting of C81, errors are also raised for numbers that are no quantiles,
    for an empty list of quantiles, and if more individuals are to be drawn than there
    are (in particular by default, if there are less than 50). *)
Theorem C83_invalid_arguments :
  forall qr nan neg_inf custom sample md p n df ids lv ar vec ps params,
    total_custom custom ->
    filter_setting md p n df ids lv ar vec ps params ->
    forall fo t, t + 1 < n ->
    get_filtered_states qr nan (model_tfunc nan neg_inf custom md (p_labels p)) md df params = Ok fo ->
    observed_in md ar t ->
    forall ranges arg n_points n_draws,
    ranges_given md ranges t ->
    (exists q, arg = OneQuantile q /\ ~ (0 <= q <= 1)%R) \/
    (exists qs q, arg = Quantiles qs /\ In q qs /\ ~ (0 <= q <= 1)%R) \/
    arg = Quantiles [] \/
    (arg = NoQuantiles /\ length ids < n_draws) ->
    get_transition_plots qr nan neg_inf custom sample md params df t ranges arg n_points n_draws = Err ValueError.
Proof.
  intros qr nan neg_inf custom sample md p n df ids lv ar vec ps params Hcustom H fo t Ht Hfo Hobs
    ranges arg n_points n_draws Hranges Harg.
  pose proof (values_known qr nan neg_inf custom md p n df ids lv ar vec ps params H fo Hfo t Ht Hobs) as Hknown.
  destruct (set_names md p n df ids lv ar vec ps params H) as (N1 & N2 & N3).
  pose proof (set_regular qr nan neg_inf custom md p n df ids lv ar vec ps params H fo Hfo) as Hreg.
  assert (Ht' : t < n) by lia.
  pose proof (the_rows_length md ar n (length ids) t (fo_anchored fo) N2 Hreg Ht') as Hrl.
  apply (set_error qr nan neg_inf custom Hcustom md p n df ids lv ar vec ps params H fo Hfo t Ht ranges Hranges Hknown).
  intros o i tf row rg lo hi Htf Erange Hrows.
  set (all := latent_of md ++ observed_of md) in *.
  assert (Hqs : forall qs, (exists q, In q qs /\ ~ (0 <= q <= 1)%R) \/ qs = [] ->
            prepare_fixed_quantile nan tf all i [(o, row)] (the_data md ar t (fo_anchored fo)) rg t qs n_points = Err ValueError).
  { intros qs Hqs. unfold prepare_fixed_quantile. rewrite Hrows. cbn [rbind]. rewrite Erange. cbn [rbind].
    destruct Hqs as [Hqs| ->]; [|reflexivity].
    match goal with |- context [mapM ?f qs] => assert (Em : mapM f qs = Err ValueError) end.
    { destruct Hqs as (q & Hin & Hq). clear -Hin Hq Htf.
      induction qs as [|q0 qs IH]; [destruct Hin|]. cbn [mapM].
      destruct (Rle_dec 0 q0) as [A|A]; [|reflexivity]. destruct (Rle_dec q0 1) as [B|B]; [|reflexivity].
      destruct Hin as [->|Hin]; [exfalso; apply Hq; lra|].
      match goal with |- context [evaluate nan tf all i ?tp ?g ?others] =>
        destruct (evaluate_total nan tf all i tp g others) as [xy Exy] end.
      { intros x _. exact (Htf _). }
      rewrite Exy. cbn [rbind]. rewrite (IH Hin). reflexivity. }
    rewrite Em. reflexivity. }
  destruct Harg as [(q & -> & Hq)|[(qs & q & -> & Hin & Hq)|[->|[-> Hlt]]]]; cbn [process_quantiles].
  - apply Hqs. left. exists q. split; [now left|exact Hq].
  - apply Hqs. left. eauto.
  - apply Hqs. now right.
  - unfold prepare_average. rewrite Hrows. cbn [rbind]. rewrite Hrl.
    destruct (Nat.leb_spec n_draws (length ids)) as [F|_]; [lia|]. reflexivity.
Qed.
Print Assumptions C83_invalid_arguments.

(** Three periods: there is no transition in the last one. The hypotheses of the other
    theorem are those of C81. *)
Example C83_nonvacuous :
  process_model single_model = Ok single_p /\ has_n_periods single_model 3 /\ 3 <= 2 + 1 /\
  length ex_ids < 50 /\ ~ (0 <= 5 <= 1)%R.
Proof.
  split; [exact single_model_accepted|]. split; [exact small_model_periods|]. split; [lia|].
  split; [simpl; lia|lra].
Qed.
