(** Theorems about the distribution of observed factors (C88). *)
Require Import Reals QArith String Arith ZArith Bool Sorted List Lia Lra.
From Verif Require Import PyBase ListFacts StringFacts ModelSpec CheckModel SpecModel ProcessModel ProcessData RSum ParamsIndex DebugData SpecDebug
  SpecData Simulate Heatmap Kalman Likelihood TransitionPlots SpecPlots PlotFacts DistributionPlots SpecDistributions DistributionFacts
  PropsPlotGrid PropsDistributions PropsDistributionGrid ExampleModels TransitionFunctions.
Import ListNotations.
Open Scope string_scope.
Open Scope list_scope.
Open Scope nat_scope.

(** The values of a data column in the rows with a label of the period, in the order of
    the rows. *)
Definition data_values (data : frame R) (label : Z) (factor : string) : list (option R) :=
  map (fun r => dr_cells r factor) (filter (fun r => Z.eqb (dr_period r) label) (fr_rows data)).

(** States in a single table with rows of the period; [o] is the only factor that is a
    column of the data, all others are columns of the table. *)
Definition observed_setting (md : model_dict) (p : processed) (data : frame R) (st : table) (t : nat)
    (factors : option (list string)) (observed_factors : bool) (fs : list string) (o : string) : Prop :=
  process_model md = Ok p /\ asked_for md factors observed_factors fs /\ NoDup fs /\
  In "period" (tb_columns st) /\ has_rows t st = true /\
  In o fs /\ In o (fr_columns data) /\ ~ In o (tb_columns st) /\ (exists f, In f fs /\ f <> o) /\
  forall f, In f fs -> f <> o -> In f (tb_columns st) /\ ~ In f (fr_columns data).

Lemma filter_single o fs (P : string -> bool) : NoDup fs -> In o fs -> P o = true ->
  (forall f, In f fs -> f <> o -> P f = false) -> filter P fs = [o].
Proof.
  induction fs as [|f fs IH]; intros Hnd Ho Hp H; [destruct Ho|]. inversion Hnd as [|? ? Hni Hnd']; subst. cbn [filter].
  destruct Ho as [->|Ho].
  - rewrite Hp. f_equal. clear IH Hnd Hnd'. induction fs as [|g fs IH]; [reflexivity|]. cbn [filter].
    rewrite (H g); [|right; now left|intros ->; apply Hni; now left].
    apply IH; [intros Hin; apply Hni; now right|]. intros f [->|Hf]; apply H; [now left|right; now right].
  - rewrite (H f); [|now left|intros ->; contradiction]. apply IH; auto. intros g Hg. apply H. now right.
Qed.

Lemma pad_full {A} n (l : list (option A)) : length l = n -> pad n l = l.
Proof. intros <-. unfold pad. now rewrite Nat.sub_diag, app_nil_r. Qed.

(** The values of an observed factor in period [t], individual by individual. *)
Definition individual_values (data : frame R) (ids lv : list Z) (t : nat) (factor : string) : list (option R) :=
  map (fun id => raw_cells data lv id t factor) ids.

(** Data in which the rows of period [t] can be used as they are: the period is labelled
    by its number, and there is one row for each individual, in ascending order. *)
Definition plain_period (data : frame R) (ids lv : list Z) (t : nat) : Prop :=
  ids_of data ids /\ periods_of data lv /\ nth_error lv t = Some (Z.of_nat t) /\
  map dr_id (filter (fun r => Z.eqb (dr_period r) (Z.of_nat t)) (fr_rows data)) = ids.

Lemma plain_values data ids lv t o : plain_period data ids lv t ->
  data_values data (Z.of_nat t) o = individual_values data ids lv t o.
Proof.
  intros ((Hs & _) & _ & Hlv & Eids). unfold data_values, individual_values, raw_cells. rewrite Hlv. rewrite <- Eids in *. clear Eids Hlv.
  set (P := fun r => Z.eqb (dr_period r) (Z.of_nat t)) in *. rewrite map_map.
  assert (G : forall r, In r (filter P (fr_rows data)) ->
     find (fun r0 => Z.eqb (dr_id r0) (dr_id r) && Z.eqb (dr_period r0) (Z.of_nat t)) (fr_rows data) = Some r).
  { intros r Hr. destruct (find _ (fr_rows data)) as [r0|] eqn:E.
    - apply find_some in E as [Hin E]. apply andb_true_iff in E as [E1 E2]. apply Z.eqb_eq in E1.
      assert (Hr0 : In r0 (filter P (fr_rows data))) by (apply filter_In; split; assumption).
      f_equal. revert Hs Hr Hr0 E1. clear. generalize (filter P (fr_rows data)). intros l Hs Hr Hr0 E.
      induction l as [|x l IH]; [destruct Hr|]. cbn [map] in Hs. apply StronglySorted_inv in Hs as [Hs Hall].
      rewrite Forall_forall in Hall. destruct Hr as [->|Hr], Hr0 as [->|Hr0]; auto.
      + specialize (Hall (dr_id r0) (in_map dr_id l r0 Hr0)). lia.
      + specialize (Hall (dr_id r) (in_map dr_id l r Hr)). lia.
    - apply filter_In in Hr as [Hr Hp]. pose proof (find_none _ _ E r Hr) as H. cbv beta in H. rewrite Z.eqb_refl in H.
      unfold P in Hp. rewrite Hp in H. discriminate. }
  apply map_ext_in. intros r Hr. now rewrite (G r Hr).
Qed.

(** The values that are shown for a factor: those of the data for the factor [o]. *)
Definition values_shown (data : frame R) (st : table) (t : nat) (o f : string) : list (option R) :=
  if String.eqb f o then data_values data (Z.of_nat t) o else values_in t st f.

Section Observed.
  Variables (md : model_dict) (p : processed) (data : frame R) (st : table) (t : nat).
  Variables (factors : option (list string)) (observed_factors : bool) (fs : list string) (o : string).
  Hypothesis H : observed_setting md p data st t factors observed_factors fs o.
  Hypothesis Hlen : length (data_values data (Z.of_nat t) o) = length (rows_in t st).

  Let df := mk_dist (repeat (Some ScNone) (length (rows_in t st)))
              (map (fun f => (Some f, values_in t st f)) (filter (fun f => negb (String.eqb f o)) fs)
               ++ [(Some o, data_values data (Z.of_nat t) o)]).

  Lemma observed_input nan neg_inf qr custom params :
    plot_input nan neg_inf qr custom md data params t factors observed_factors (Some (OneTable st)) = Ok (fs, df).
  Proof.
    destruct H as (Hp & Ha & Hnd & Hper & Hrows & Ho & Hod & Hos & (f0 & Hf0 & Hne0) & Hothers).
    unfold plot_input, default_states. cbn [rbind]. rewrite Hp. cbn [rbind]. rewrite (factors_ok md p factors observed_factors fs Hp Ha).
    assert (Eo : get_data_observed_factors data fs = Some (Some o, map (fun r => (dr_period r, dr_cells r o)) (fr_rows data))).
    { unfold get_data_observed_factors. rewrite (filter_single o); auto.
      - cbn [forallb flat_map]. now rewrite app_nil_r.
      - now apply smem_In.
      - intros f Hf Hne. destruct (smem f (fr_columns data)) eqn:E; [|reflexivity]. apply smem_In in E.
        exfalso. exact (proj2 (Hothers f Hf Hne) E). }
    rewrite Eo. unfold dist_process_data.
    assert (Ef : filter (fun f => smem f (tb_columns st)) fs = filter (fun f => negb (String.eqb f o)) fs).
    { apply filter_ext_in. intros f Hf. destruct (String.eqb_spec f o) as [->|Hne]; cbn [negb].
      - destruct (smem o (tb_columns st)) eqn:E; [|reflexivity]. apply smem_In in E. contradiction.
      - apply smem_In. apply (Hothers f Hf Hne). }
    rewrite Ef.
    assert (Hne : filter (fun f => negb (String.eqb f o)) fs <> []).
    { intros E. assert (Hin : In f0 (filter (fun f => negb (String.eqb f o)) fs)).
      { apply filter_In. split; [exact Hf0|]. now destruct (String.eqb_spec f0 o). }
      rewrite E in Hin. destruct Hin. }
    rewrite (query_period_ok t st Hper). cbn [rbind].
    unfold df. clear df Ef. destruct (filter (fun f => negb (String.eqb f o)) fs) as [|o1 rest]; [contradiction|].
    set (others := o1 :: rest). cbn [rbind dd_scenario dd_columns].
    assert (Ev : map snd (filter (fun pv => Z.eqb (fst pv) (Z.of_nat t)) (map (fun r => (dr_period r, dr_cells r o)) (fr_rows data)))
                 = data_values data (Z.of_nat t) o).
    { unfold data_values. clear. induction (fr_rows data) as [|r l IH]; [reflexivity|]. cbn [map filter fst].
      destruct (Z.eqb (dr_period r) (Z.of_nat t)); cbn [map snd]; now rewrite IH. }
    rewrite Ev, map_const, repeat_length, Hlen, Nat.max_id. do 3 f_equal.
    - apply pad_full, repeat_length.
    - rewrite map_map. cbn [fst snd]. f_equal.
      + apply map_ext. intros f. rewrite <- values_in_rows. f_equal. apply pad_full, values_in_length.
      + rewrite pad_full by exact Hlen. reflexivity.
  Qed.

  Lemma observed_column f : In f fs -> dist_column df f = Ok (values_shown data st t o f).
  Proof.
    destruct H as (Hp & Ha & Hnd & Hper & Hrows & Ho & Hod & Hos & _ & Hothers).
    intros Hf. unfold dist_column, df. cbn [dd_columns]. rewrite filter_app. cbn [filter fst].
    assert (G : forall l, NoDup l -> filter (fun c : option string * list (option R) => match fst c with Some s => String.eqb s f | None => false end)
         (map (fun f => (Some f, values_in t st f)) (filter (fun f => negb (String.eqb f o)) l))
         = if smem f l && negb (String.eqb f o) then [(Some f, values_in t st f)] else []).
    { intros l Hl. induction Hl as [|g l Hni Hl IH]; [reflexivity|]. cbn [filter smem existsb].
      destruct (String.eqb_spec g o) as [->|Hgo]; cbn [negb].
      - rewrite IH. destruct (String.eqb_spec f o) as [->|Hfo]; cbn [negb orb]; [now rewrite !andb_false_r|reflexivity].
      - cbn [map filter fst]. destruct (String.eqb_spec g f) as [->|Hgf].
        + rewrite String.eqb_refl. cbn [orb andb]. destruct (String.eqb_spec f o); [contradiction|]. cbn [negb]. f_equal. rewrite IH.
          destruct (smem f l) eqn:E; [apply smem_In in E; contradiction|reflexivity].
        + rewrite IH. destruct (String.eqb_spec f g); [congruence|reflexivity]. }
    rewrite (G fs Hnd). rewrite (proj2 (smem_In f fs) Hf). unfold values_shown. rewrite (String.eqb_sym o f).
    destruct (String.eqb_spec f o) as [->|Hfo]; reflexivity.
  Qed.

  Lemma shown_length f : length (values_shown data st t o f) = length (rows_in t st).
  Proof. unfold values_shown. destruct (String.eqb f o); [exact Hlen|apply values_in_length]. Qed.

  Lemma some_rows : exists k, length (rows_in t st) = S k.
  Proof.
    destruct H as (_ & _ & _ & _ & Hrows & _). rewrite has_rows_spec in Hrows.
    destruct (length (rows_in t st)) as [|k]; [discriminate|eauto].
  Qed.

  Lemma observed_scenarios : unique_scenarios df = [Some ScNone].
  Proof.
    destruct some_rows as [k Ek]. unfold unique_scenarios, df. cbn [dd_scenario]. rewrite Ek. cbn [repeat fold_left existsb app].
    induction k as [|k IH]; [reflexivity|]. cbn [repeat fold_left existsb option_scenario_eqb scenario_eqb orb].
    clear -k. induction k as [|k IH]; [reflexivity|]. cbn [repeat fold_left existsb option_scenario_eqb scenario_eqb orb]. exact IH.
  Qed.

  Lemma observed_where f : where_scenario df (Some ScNone) (values_shown data st t o f) = values_shown data st t o f.
  Proof.
    unfold where_scenario, df. cbn [dd_scenario]. rewrite <- (shown_length f).
    change (filter (fun sv : option scenario * option R => match fst sv with Some b => scenario_eqb ScNone b | None => false end)
       (combine (repeat (Some ScNone) (length (values_shown data st t o f))) (values_shown data st t o f))) with
      (filter (fun sv : option scenario * option R => match fst sv with Some b => scenario_eqb ScNone b | None => false end)
       (combine (repeat (Some ScNone) (length (values_shown data st t o f))) (values_shown data st t o f))).
    rewrite where_block. cbn [scenario_eqb]. apply map_snd_combine. now rewrite repeat_length.
  Qed.
End Observed.

(** * C88 *)

(** If only one observed factor is plotted, the periods in the data are labelled by
    0, 1, ... and each individual is in the data of the period, the plot of the observed
    factor shows its values in the period. What is missing: several observed factors
    (C88_two_observed_factors_refuted), other labels of the periods (C88_labels_refuted),
    rows that are not sorted (C88_individuals_refuted), several scenarios
    (C88_scenarios_refuted) and individuals that are missing in a period. *)
Theorem C88_univariate_partial :
  forall distplot create_distplot nan neg_inf qr custom md p data params t st factors observed_factors fs o ids lv,
    observed_setting md p data st t factors observed_factors fs o ->
    plain_period data ids lv t -> length ids = length (cells_of_period st t "period") ->
    exists plots,
      univariate_densities distplot create_distplot nan neg_inf qr custom md data params t
        factors observed_factors (Some (OneTable st)) = Ok plots /\
      map fst plots = fs /\
      forall f fig, In (f, fig) plots ->
        let values := if String.eqb f o then individual_values data ids lv t o else values_in t st f in
        (forall figure, fig = Some figure <-> create_distplot [values] [Some ScNone] = Ok figure) /\
        (fig = None <-> exists e, create_distplot [values] [Some ScNone] = Err e).
Proof.
  intros distplot create nan neg_inf qr custom md p data params t st factors observed fs o ids lv H Hplain Hlen.
  assert (Hlen' : length (data_values data (Z.of_nat t) o) = length (rows_in t st)).
  { rewrite (plain_values data ids lv t o Hplain). unfold individual_values. rewrite map_length, Hlen. unfold cells_of_period. apply map_length. }
  pose proof (plain_values data ids lv t o Hplain) as Evalues.
  unfold univariate_densities. rewrite (observed_input md p data st t factors observed fs o H Hlen'). cbn [rbind fst snd].
  rewrite (observed_scenarios md p data st t factors observed fs o H Hlen').
  match goal with |- context [mapM ?fn fs] => assert (E : mapM fn fs = Ok (map (fun f => (f,
      match create [values_shown data st t o f] [Some ScNone] with Ok fg => Some fg | Err _ => None end)) fs)) end.
  { rewrite <- mapM_Ok_map. apply mapM_ext. intros f Hf.
    cbn [mapM]. rewrite (observed_column md p data st t factors observed fs o H f Hf). cbn [rbind].
    rewrite (observed_where data st t fs o Hlen' f). reflexivity. }
  rewrite E. eexists. split; [reflexivity|]. split; [rewrite map_map; apply map_id|].
  intros f fig Hin. apply in_map_iff in Hin as (g & Eg & _). injection Eg as -> <-. cbv zeta. rewrite <- Evalues. fold (values_shown data st t o f).
  destruct (create [values_shown data st t o f] [Some ScNone]) as [fg|e]; split.
  - intros figure. split; congruence.
  - split; [discriminate|]. intros [e [=]].
  - intros figure. split; discriminate.
  - split; [eauto|reflexivity].
Qed.
Print Assumptions C88_univariate_partial.

(** Under the same conditions, the values of a pair of factors are combined row by row. *)
Theorem C88_contours_partial :
  forall gaussian_kde nan neg_inf qr custom n_colors md p data params t st factors observed_factors fs o ids lv n_points,
    needs_data gaussian_kde -> 1 <= n_colors -> 1 <= n_points ->
    observed_setting md p data st t factors observed_factors fs o ->
    plain_period data ids lv t -> length ids = length (cells_of_period st t "period") ->
    exists plots,
      bivariate_density_contours gaussian_kde nan neg_inf qr custom n_colors md data params t
        factors observed_factors (Some (OneTable st)) n_points = Ok plots /\
      (forall f g, In (f, g) (map fst plots) <-> In f fs /\ In g fs /\ f <> g) /\
      forall f g fig, In ((f, g), fig) plots ->
        let values f := if String.eqb f o then individual_values data ids lv t o else values_in t st f in
        let xs := values f in
        let ys := values g in
        cf_xtitle fig = f /\ cf_ytitle fig = g /\
        (cf_traces fig = [] <-> exists e, gaussian_kde xs ys = Err e) /\
        forall c, In c (cf_traces fig) -> cf_traces fig = [c] /\ is_contour gaussian_kde n_points xs ys c.
Proof.
  intros kde nan neg_inf qr custom n_colors md p data params t st factors observed fs o ids lv n Hkde Hcol Hn H Hplain Hlen.
  assert (Hlen' : length (data_values data (Z.of_nat t) o) = length (rows_in t st)).
  { rewrite (plain_values data ids lv t o Hplain). unfold individual_values. rewrite map_length, Hlen. unfold cells_of_period. apply map_length. }
  pose proof (plain_values data ids lv t o Hplain) as Evalues.
  unfold bivariate_density_contours. rewrite (observed_input md p data st t factors observed fs o H Hlen'). cbn [rbind fst snd].
  rewrite (observed_scenarios md p data st t factors observed fs o H Hlen'). destruct (factor_pairs_ok fs) as [_ Hpi].
  eexists. split; [reflexivity|]. rewrite map_map. cbn [fst]. rewrite map_id. split; [exact Hpi|].
  intros f g fig Hin. cbv zeta. rewrite <- Evalues. fold (values_shown data st t o f) (values_shown data st t o g).
  set (xs := values_shown data st t o f). set (ys := values_shown data st t o g). apply in_map_iff in Hin as ([f' g'] & Ef & Hin). injection Ef as -> -> <-.
  cbn [cf_xtitle cf_ytitle cf_traces fst snd]. split; [reflexivity|]. split; [reflexivity|]. apply Hpi in Hin as (Hf & Hg & _).
  rewrite (observed_column md p data st t factors observed fs o H f Hf), (observed_column md p data st t factors observed fs o H g Hg).
  cbn [rbind enumerate length seq combine flat_map fst snd].
  rewrite (observed_where data st t fs o Hlen' f), (observed_where data st t fs o Hlen' g). fold xs ys.
  pose proof (kde_mesh kde nan xs ys n Hkde) as Hm. destruct (calculate_kde kde nan xs ys n) as [m|e]; cbn [rbind app].
  2:{ split; [split; eauto|]. intros c []. }
  destruct Hm as (d & gx & gy & Ed & Hx & Hy & Ex & Ey & Ez).
  assert (Hlx : length gx = n) by (destruct Hx as (? & ? & _ & Hl & _); exact Hl).
  assert (Hly : length gy = n) by (destruct Hy as (? & ? & _ & Hl & _); exact Hl).
  destruct m as [mx my mz]. cbn [ms_x ms_y ms_z] in *. subst mx my mz.
  rewrite mesh_contour_ok by (intros ->; cbn [length] in *; lia). cbn [rbind].
  destruct (Nat.ltb_spec 0 n_colors) as [_|Hk]; [|lia]. cbn [app]. split.
  { split; [discriminate|]. intros [e He]. congruence. }
  intros c [<-|[]]. split; [reflexivity|].
  exists d. split; [exact Ed|]. cbn [ct_x ct_y ct_z]. split; [exact Hx|]. split; [exact Hy|].
  intros i j x y Hi Hj. unfold at_position. eexists. rewrite nth_error_map, Hi. split; [reflexivity|].
  now rewrite nth_error_map, Hj.
Qed.
Print Assumptions C88_contours_partial.

(** Two observed factors: no univariate plots at all, and there is no contour in the plots
    of an observed factor. *)
Theorem C88_two_observed_factors_refuted :
  forall distplot create_distplot gaussian_kde nan neg_inf qr custom n_colors md p data params t st
         factors observed_factors fs f o1 o2 n_points,
    process_model md = Ok p -> asked_for md factors observed_factors fs ->
    In "period" (tb_columns st) -> has_rows t st = true -> In f fs -> In f (tb_columns st) ->
    In o1 fs -> In o1 (fr_columns data) -> ~ In o1 (tb_columns st) ->
    In o2 fs -> In o2 (fr_columns data) -> o1 <> o2 ->
    (exists e, univariate_densities distplot create_distplot nan neg_inf qr custom md data params t
                 factors observed_factors (Some (OneTable st)) = Err e) /\
    exists plots,
      bivariate_density_contours gaussian_kde nan neg_inf qr custom n_colors md data params t
        factors observed_factors (Some (OneTable st)) n_points = Ok plots /\
      forall g fig, In ((o1, g), fig) plots \/ In ((g, o1), fig) plots -> cf_traces fig = [].
Proof.
  intros distplot create kde nan neg_inf qr custom n_colors md p data params t st factors observed fs f o1 o2 n
    Hp Ha Hper Hrows Hf Hfs Ho1 Hd1 Hs1 Ho2 Hd2 Hne.
  assert (E : exists df, plot_input nan neg_inf qr custom md data params t factors observed (Some (OneTable st)) = Ok (fs, df)
      /\ dist_column df o1 = Err KeyError /\ unique_scenarios df <> []).
  { unfold plot_input, default_states. cbn [rbind]. rewrite Hp. cbn [rbind]. rewrite (factors_ok md p factors observed fs Hp Ha).
    assert (Eo : exists values, get_data_observed_factors data fs = Some (None, values)).
    { unfold get_data_observed_factors.
      assert (H1 : In o1 (filter (fun f => smem f (fr_columns data)) fs)) by (apply filter_In; split; [exact Ho1|now apply smem_In]).
      assert (H2 : In o2 (filter (fun f => smem f (fr_columns data)) fs)) by (apply filter_In; split; [exact Ho2|now apply smem_In]).
      destruct (filter (fun f => smem f (fr_columns data)) fs) as [|g l]; [destruct H1|].
      destruct (forallb (String.eqb g) l) eqn:Eg; [|eauto]. exfalso. rewrite forallb_forall in Eg.
      assert (G : forall x, In x (g :: l) -> g = x).
      { intros x [->|Hx]; [reflexivity|]. now apply String.eqb_eq, Eg. }
      apply Hne. now rewrite <- (G o1 H1), <- (G o2 H2). }
    destruct Eo as [values Eo]. rewrite Eo. unfold dist_process_data.
    assert (Hin : In f (filter (fun f => smem f (tb_columns st)) fs)) by (apply filter_In; split; [exact Hf|now apply smem_In]).
    assert (Hno : ~ In o1 (filter (fun f => smem f (tb_columns st)) fs)).
    { intros Hi. apply filter_In in Hi as [_ Hi]. apply smem_In in Hi. contradiction. }
    rewrite (query_period_ok t st Hper). cbn [rbind].
    destruct (filter (fun f => smem f (tb_columns st)) fs) as [|g l]; [destruct Hin|]. set (fs' := g :: l) in *. clearbody fs'.
    cbn [rbind dd_scenario dd_columns]. eexists. split; [reflexivity|]. split.
    - unfold dist_column. cbn [dd_columns]. rewrite filter_app. cbn [filter fst].
      assert (G : forall (h : string -> list (option R)) k l, ~ In o1 l ->
        filter (fun c : option string * list (option R) => match fst c with Some s => String.eqb s o1 | None => false end)
          (map (fun c => (fst c, pad k (snd c))) (map (fun f => (Some f, h f)) l)) = []).
      { intros h k l' Hl. induction l' as [|x l' IH]; [reflexivity|]. cbn [map filter fst].
        destruct (String.eqb_spec x o1) as [->|_]; [exfalso; apply Hl; now left|]. apply IH. intros Hi. apply Hl. now right. }
      rewrite G by exact Hno. reflexivity.
    - unfold unique_scenarios. cbn [dd_scenario]. rewrite has_rows_spec in Hrows.
      destruct (rows_in t st) as [|r rows]; [discriminate|]. unfold pad. cbn [map app fold_left existsb].
      assert (G : forall l0 (acc : list (option scenario)), acc <> [] ->
        fold_left (fun acc s => if existsb (option_scenario_eqb s) acc then acc else acc ++ [s]) l0 acc <> []).
      { induction l0 as [|x l' IH]; intros acc Hacc; [exact Hacc|]. cbn [fold_left]. apply IH.
        destruct (existsb (option_scenario_eqb x) acc); [exact Hacc|]. now destruct acc. }
      apply G. discriminate. }
  destruct E as (df & E & Ec & Es). split.
  - unfold univariate_densities. rewrite E. cbn [rbind fst snd].
    eapply mapM_err; [exact Ho1|]. destruct (unique_scenarios df) as [|s l]; [contradiction|].
    cbn [mapM]. rewrite Ec. reflexivity.
  - unfold bivariate_density_contours. rewrite E. cbn [rbind fst snd]. eexists. split; [reflexivity|].
    intros g fig [Hin|Hin]; apply in_map_iff in Hin as ([f' g'] & Ef & _); injection Ef as -> -> <-; cbn [cf_traces fst snd];
      rewrite Ec; generalize (enumerate (unique_scenarios df)); intros l; induction l as [|x l IH]; try reflexivity;
      cbn [flat_map rbind]; try exact IH.
    destruct (dist_column df g); cbn [rbind]; exact IH.
Qed.
Print Assumptions C88_two_observed_factors_refuted.

(** ** Other data *)

(** Data of two individuals in two periods. *)
Definition income (rows : list (Z * Z * R)) (periods : list Z) : frame R :=
  mk_frame ["inc"; "a"] [1; 2]%Z periods
    (map (fun row => mk_drow (fst (fst row)) (snd (fst row)) (fun c => if String.eqb c "inc" then Some (snd row) else None)) rows).

(** Their states: the ids are the positions of the individuals in the sorted data. *)
Definition cog_states : table :=
  mk_table ["id"; "period"; "cog"]
    (map (fun row : nat * nat * R => fun c => if String.eqb c "id" then CInt (fst (fst row)) else
        if String.eqb c "period" then CInt (snd (fst row)) else CNum (snd row))
      [(0, 0, 1%R); (1, 0, 2%R); (0, 1, 3%R); (1, 1, 4%R)]).

Lemma small_ok : exists p, process_model small_model = Ok p.
Proof. destruct (process_model small_model) as [p|e] eqn:E; [eauto|]. vm_compute in E. discriminate. Qed.

Lemma cog_inc_setting data t : t < 2 -> fr_columns data = ["inc"; "a"] -> exists p,
  observed_setting small_model p data cog_states t (Some ["cog"; "inc"]) true ["cog"; "inc"] "inc".
Proof.
  intros Ht Hc. destruct small_ok as [p Hp]. exists p. unfold observed_setting. rewrite Hc.
  split; [exact Hp|]. split; [reflexivity|]. split; [repeat constructor; simpl; intuition discriminate|].
  split; [simpl; tauto|]. split; [destruct t as [|[|t]]; [reflexivity|reflexivity|lia]|].
  split; [simpl; tauto|]. split; [simpl; tauto|]. split; [simpl; intuition discriminate|].
  split; [exists "cog"; split; [now left|discriminate]|].
  intros f [<-|[<-|[]]] Hne; [|contradiction]. split; simpl; intuition discriminate.
Qed.

(** The same figure for the same data: the figure is the data itself. *)
Definition data_as_plot (hist_data : list (list (option R))) (groups : list (option scenario)) : result (list (list (option R))) :=
  Ok hist_data.

Ltac ascending_tac :=
  split; [repeat constructor|
    let z := fresh "z" in intros z; split;
    [intros Hz; simpl in Hz; repeat (destruct Hz as [<-|Hz]);
       try (eexists; split; [now left|reflexivity]); try (eexists; split; [right; now left|reflexivity]);
       try (eexists; split; [right; right; now left|reflexivity]); try contradiction
    |intros (r & Hr & <-); simpl in Hr; repeat (destruct Hr as [<-|Hr]); simpl; try tauto; try contradiction]].

Definition plain_income := income [(1, 0, 10%R); (1, 1, 30%R); (2, 0, 20%R); (2, 1, 40%R)]%Z [0; 1]%Z.

Example C88_nonvacuous :
  (exists p, observed_setting small_model p plain_income cog_states 1 (Some ["cog"; "inc"]) true ["cog"; "inc"] "inc") /\
  plain_period plain_income [1; 2]%Z [0; 1]%Z 1 /\
  length [1; 2]%Z = length (cells_of_period cog_states 1 "period") /\
  individual_values plain_income [1; 2]%Z [0; 1]%Z 1 "inc" = [Some 30%R; Some 40%R] /\
  values_in 1 cog_states "cog" = [Some 3%R; Some 4%R].
Proof.
  split; [apply cog_inc_setting; [lia|reflexivity]|]. split; [|split; [reflexivity|split; reflexivity]].
  split; [ascending_tac|]. split; [ascending_tac|]. split; reflexivity.
Qed.

(** Periods that are labelled by other numbers than 0, 1, ...: the plot of an observed
    factor shows nothing although each individual has a value in the period. *)
Definition labelled_income := income [(1, 10, 10%R); (1, 20, 30%R); (2, 10, 20%R); (2, 20, 40%R)]%Z [10; 20]%Z.

Theorem C88_labels_refuted :
  exists md p data st t fs o ids lv,
    observed_setting md p data st t (Some fs) true fs o /\ ids_of data ids /\ periods_of data lv /\
    individual_values data ids lv t o = [Some 30%R; Some 40%R] /\
    forall nan neg_inf qr custom params,
    exists plots fig,
      univariate_densities _ data_as_plot nan neg_inf qr custom md data params t
        (Some fs) true (Some (OneTable st)) = Ok plots /\
      In (o, Some fig) plots /\ fig = [[None; None]].
Proof.
  destruct (cog_inc_setting labelled_income 1 ltac:(lia) eq_refl) as [p Hset].
  exists small_model, p, labelled_income, cog_states, 1, ["cog"; "inc"], "inc", [1; 2]%Z, [10; 20]%Z.
  split; [exact Hset|]. split; [ascending_tac|]. split; [ascending_tac|]. split; [reflexivity|].
  intros nan neg_inf qr custom params. destruct Hset as [Hp _].
  unfold univariate_densities, plot_input, default_states. cbn [rbind]. rewrite Hp. cbn [rbind get_factors].
  eexists _, _. split; [reflexivity|]. split; [right; now left|reflexivity].
Qed.
Print Assumptions C88_labels_refuted.

(** Rows of the data that are not sorted by individual: the values of one individual are
    combined with the income of the other. The estimated density does not depend on the
    order of the individuals. *)
Definition unsorted_income := income [(2, 0, 20%R); (2, 1, 40%R); (1, 0, 10%R); (1, 1, 30%R)]%Z [0; 1]%Z.

Definition sum_of_products (xs ys : list (option R)) : result (R -> R -> R) :=
  match numbers xs, numbers ys with
  | _ :: _, _ :: _ => Ok (fun _ _ => fold_right Rplus 0%R (map (fun xy => match xy with (Some x, Some y) => (x * y)%R | _ => 0%R end) (combine xs ys)))
  | _, _ => Err ValueError
  end.

Theorem C88_individuals_refuted :
  exists md p data st t fs f o ids lv gaussian_kde,
    observed_setting md p data st t (Some fs) true fs o /\ ids_of data ids /\ periods_of data lv /\
    In f fs /\ cells_of_period st t "id" = map CInt (seq 0 (length ids)) /\
    needs_data gaussian_kde /\
    forall nan neg_inf qr custom n_colors params density, 1 <= n_colors ->
    gaussian_kde (values_in t st f) (individual_values data ids lv t o) = Ok density ->
    exists plots fig c x y v,
      bivariate_density_contours gaussian_kde nan neg_inf qr custom n_colors md data params t
        (Some fs) true (Some (OneTable st)) 1 = Ok plots /\
      In ((f, o), fig) plots /\ In c (cf_traces fig) /\ contour_shows c x y v /\ v <> density x y.
Proof.
  destruct (cog_inc_setting unsorted_income 0 ltac:(lia) eq_refl) as [p Hset].
  exists small_model, p, unsorted_income, cog_states, 0, ["cog"; "inc"], "cog", "inc", [1; 2]%Z, [0; 1]%Z, sum_of_products.
  split; [exact Hset|]. split; [ascending_tac|]. split; [ascending_tac|]. split; [now left|]. split; [reflexivity|]. split.
  { intros xs ys d H. unfold sum_of_products in H. destruct (numbers xs), (numbers ys); split; discriminate. }
  intros nan neg_inf qr custom n_colors params density Hcol Ed. destruct Hset as [Hp _].
  unfold bivariate_density_contours, plot_input, default_states. cbn [rbind]. rewrite Hp. cbn [rbind get_factors].
  destruct n_colors as [|n_colors]; [lia|].
  vm_compute in Ed. injection Ed as <-.
  eexists _, _, _, _, _, _. split; [reflexivity|]. split; [now left|]. split; [now left|]. split.
  - exists 0, 0. split; [reflexivity|]. split; [reflexivity|]. eexists. split; reflexivity.
  - cbn. lra.
Qed.
Print Assumptions C88_individuals_refuted.

Definition two_observed_model : model_dict :=
  mk_md (md_factors small_model) (Some ["inc"; "edu"]) (md_controls small_model) (md_stagemap small_model)
    (md_anchoring small_model) (md_options small_model).

Example C88_two_observed_factors_nonvacuous :
  exists p, process_model two_observed_model = Ok p /\
    asked_for two_observed_model None true ["cog"; "soc"; "inc"; "edu"] /\
    In "period" (tb_columns cog_states) /\ has_rows 1 cog_states = true /\ In "cog" (tb_columns cog_states) /\
    let data := mk_frame ["inc"; "edu"; "a"] [1]%Z [0]%Z [mk_drow 1%Z 0%Z (fun _ => Some 1%R)] in
    In "inc" (fr_columns data) /\ ~ In "inc" (tb_columns cog_states) /\ In "edu" (fr_columns data).
Proof.
  assert (E : exists p, process_model two_observed_model = Ok p).
  { destruct (process_model two_observed_model) as [p|e] eqn:E; [eauto|]. vm_compute in E. discriminate. }
  destruct E as [p Hp]. exists p. split; [exact Hp|]. split; [reflexivity|]. simpl. intuition discriminate.
Qed.

(** Several scenarios can not be compared if an observed factor is plotted: a factor has
    to be a column of all tables, also if it is in the data. *)
Theorem C88_scenarios_refuted :
  forall distplot create_distplot gaussian_kde nan neg_inf qr custom n_colors md data params t states
         factors observed_factors fs name st o n_points,
    asked_for md factors observed_factors fs ->
    (forall one, states <> OneTable one) -> In (name, st) (tables_of states) -> In o fs -> ~ In o (tb_columns st) ->
    (exists e, univariate_densities distplot create_distplot nan neg_inf qr custom md data params t
                 factors observed_factors (Some states) = Err e) /\
    (exists e, bivariate_density_contours gaussian_kde nan neg_inf qr custom n_colors md data params t
                 factors observed_factors (Some states) n_points = Err e).
Proof.
  intros distplot create kde nan neg_inf qr custom n_colors md data params t states factors observed fs name st o n Ha Hone Hin Ho Hno.
  assert (E : exists e, plot_input nan neg_inf qr custom md data params t factors observed (Some states) = Err e).
  { unfold plot_input, default_states. cbn [rbind]. destruct (process_model md) as [p|e] eqn:Hp; cbn [rbind]; [|now exists e].
    rewrite (factors_ok md p factors observed fs Hp Ha). unfold dist_process_data.
    assert (G : forall l, In (name, st) l -> exists e,
      mapM (fun nt => do rows <- query_period (snd nt) t;
                      if forallb (fun f => smem f (tb_columns (snd nt))) fs
                      then Ok (map (fun row => (fst nt : scenario, row)) rows) else Err KeyError) l = Err e).
    { intros l Hl.
      assert (Ef : forallb (fun f => smem f (tb_columns (snd (name, st)))) fs = false).
      { cbn [snd]. destruct (forallb (fun f => smem f (tb_columns st)) fs) eqn:Ef; [|reflexivity].
        rewrite forallb_forall in Ef. specialize (Ef o Ho). apply smem_In in Ef. contradiction. }
      destruct (query_period st t) as [rows|e] eqn:Eq.
      - eapply mapM_err; [exact Hl|]. cbn [snd] in Ef |- *. rewrite Eq. cbn [rbind]. rewrite Ef. reflexivity.
      - eapply mapM_err; [exact Hl|]. cbn [snd]. rewrite Eq. reflexivity. }
    destruct states as [one|d|l]; [now destruct (Hone one)| |].
    - destruct (G _ Hin) as [e Ge]. cbv zeta. cbn [tables_of] in Ge. rewrite Ge. cbn [rbind]. now exists e.
    - assert (Et : combine (map ScNumber (range (length l))) l = map (fun it => (ScNumber (fst it), snd it)) (combine (seq 0 (length l)) l)).
      { unfold range. generalize (seq 0 (length l)). clear. intros ks. revert ks. induction l as [|x l IH]; intros [|k ks]; try reflexivity.
        cbn [map combine fst snd]. now rewrite IH. }
      destruct (G _ Hin) as [e Ge]. cbv zeta. cbn [tables_of] in Ge. rewrite Et, Ge. cbn [rbind]. now exists e. }
  destruct E as [e E]. unfold univariate_densities, bivariate_density_contours. rewrite E. split; now exists e.
Qed.
Print Assumptions C88_scenarios_refuted.

Example C88_scenarios_nonvacuous :
  asked_for small_model None true ["cog"; "soc"; "inc"] /\
  In (ScName "base", cog_states) (tables_of (TableDict [("base", cog_states); ("policy", cog_states)])) /\
  ~ In "inc" (tb_columns cog_states).
Proof. split; [reflexivity|]. split; [now left|]. simpl. intuition discriminate. Qed.
