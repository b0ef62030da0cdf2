(** Theorems about the plots of the distribution of factors (C64, C86, C87). *)
Require Import Reals QArith String Arith ZArith Bool List Lia Lra.
From Verif Require Import PyBase ListFacts StringFacts ModelSpec CheckModel SpecModel ProcessModel ProcessData RSum ParamsIndex DebugData SpecDebug
  Simulate Heatmap Kalman Likelihood TransitionPlots SpecPlots PlotFacts DistributionPlots SpecDistributions DistributionFacts
  PropsPlotGrid ExampleModels TransitionFunctions.
Import ListNotations.
Open Scope string_scope.
Open Scope list_scope.
Open Scope nat_scope.

(** The setting of the theorems: the model is valid and the states are complete for the
    factors. No data column is called like one of the factors (see C88 for observed
    factors). *)
Definition plot_setting (md : model_dict) (p : processed) (data : frame R) (states : states_arg)
    (factors : option (list string)) (observed_factors : bool) (fs : list string) : Prop :=
  process_model md = Ok p /\ asked_for md factors observed_factors fs /\ fs <> [] /\ NoDup fs /\
  states_for states fs /\ forall f, In f fs -> ~ In f (fr_columns data).

Lemma plot_input_ok nan neg_inf qr custom md p data params t states factors observed fs :
  plot_setting md p data states factors observed fs ->
  plot_input nan neg_inf qr custom md data params t factors observed (Some states)
  = Ok (fs, stacked t (tables_of states) fs).
Proof.
  intros (Hp & Ha & Hne & _ & Hs & Hd). unfold plot_input, default_states. cbn [rbind]. rewrite Hp. cbn [rbind].
  rewrite (factors_ok md p factors observed fs Hp Ha), (no_observed data fs Hd), (process_ok t states fs Hne Hs). reflexivity.
Qed.

(** * C86 *)

(** There is one plot for each factor, in their order. It shows for each scenario the
    values of the factor in the period, all of them and in their order; it is an empty
    figure exactly if no such plot can be made. *)
Theorem C86_univariate_densities :
  forall distplot create_distplot nan neg_inf qr custom md p data params t states factors observed_factors fs,
    plot_setting md p data states factors observed_factors fs ->
    exists plots,
      univariate_densities distplot create_distplot nan neg_inf qr custom md data params t
        factors observed_factors (Some states) = Ok plots /\
      map fst plots = fs /\
      forall f fig, In (f, fig) plots ->
        let outcome := create_distplot (map (fun sc => values_in t (snd sc) f) (scenarios_in t states))
                                       (map (fun sc => Some (fst sc)) (scenarios_in t states)) in
        (forall figure, fig = Some figure <-> outcome = Ok figure) /\
        (fig = None <-> exists e, outcome = Err e).
Proof.
  intros distplot create nan neg_inf qr custom md p data params t states factors observed fs Hset.
  unfold univariate_densities. rewrite (plot_input_ok _ _ _ _ md p data params t states factors observed fs Hset).
  cbn [rbind fst snd]. destruct Hset as (Hp & Ha & Hne & Hnd & (Hnn & Hnames & Hcols) & Hd).
  rewrite (stacked_scenarios t (tables_of states) fs Hnames).
  change (filter (fun st => has_rows t (snd st)) (tables_of states)) with (scenarios_in t states).
  set (scs := scenarios_in t states).
  assert (E : forall l, incl l fs ->
    mapM (fun fac =>
        do hist_data <- mapM (fun s => do c <- dist_column (stacked t (tables_of states) fs) fac;
                                       Ok (where_scenario (stacked t (tables_of states) fs) s c))
                          (map (fun st => Some (fst st)) scs);
        Ok (fac, match create hist_data (map (fun st => Some (fst st)) scs) with Ok f => Some f | Err _ => None end)) l
    = Ok (map (fun f => (f, match create (map (fun sc => values_in t (snd sc) f) scs) (map (fun sc => Some (fst sc)) scs) with
                            | Ok f => Some f | Err _ => None end)) l)).
  { intros l Hl. rewrite <- mapM_Ok_map. apply mapM_ext. intros f Hf.
    rewrite (stacked_column t (tables_of states) fs f Hnd (Hl f Hf)). cbn [rbind].
    rewrite mapM_Ok_map. cbn [rbind]. rewrite map_map. do 3 f_equal.
    rewrite (map_ext_in _ (fun sc => values_in t (snd sc) f)); [reflexivity|].
    intros [name st] Hin. cbn [fst snd]. apply stacked_where; [exact Hnames|].
    unfold scs, scenarios_in in Hin. now apply filter_In in Hin. }
  rewrite E by apply incl_refl. eexists. split; [reflexivity|]. split; [rewrite map_map; apply map_id|].
  intros f fig Hin. apply in_map_iff in Hin as (g & Eg & _). injection Eg as -> <-.
  destruct (create _ _) as [fg|e]; split.
  - intros figure. split; congruence.
  - split; [discriminate|]. intros [e [=]].
  - intros figure. split; discriminate.
  - split; [eauto|reflexivity].
Qed.
Print Assumptions C86_univariate_densities.

(** By default, the states are the anchored filtered states. *)
Theorem C86_default_states :
  forall distplot create_distplot gaussian_kde nan neg_inf qr custom md p data params t factors observed_factors fo n_colors n_points,
    process_model md = Ok p ->
    get_filtered_states qr nan (model_tfunc nan neg_inf custom md (p_labels p)) md data params = Ok fo ->
    let filtered := Some (OneTable (fo_anchored fo)) in
    univariate_densities distplot create_distplot nan neg_inf qr custom md data params t factors observed_factors None
    = univariate_densities distplot create_distplot nan neg_inf qr custom md data params t factors observed_factors filtered /\
    bivariate_density_contours gaussian_kde nan neg_inf qr custom n_colors md data params t factors observed_factors None n_points
    = bivariate_density_contours gaussian_kde nan neg_inf qr custom n_colors md data params t factors observed_factors filtered n_points /\
    bivariate_density_surfaces gaussian_kde nan neg_inf qr custom md data params t factors observed_factors None n_points
    = bivariate_density_surfaces gaussian_kde nan neg_inf qr custom md data params t factors observed_factors filtered n_points.
Proof.
  intros distplot create kde nan neg_inf qr custom md p data params t factors observed fo n_colors n_points Hp Hfo filtered.
  assert (E : plot_input nan neg_inf qr custom md data params t factors observed None
              = plot_input nan neg_inf qr custom md data params t factors observed filtered).
  { unfold plot_input, default_states, filtered. rewrite Hp. cbn [rbind]. rewrite Hfo. reflexivity. }
  unfold univariate_densities, bivariate_density_contours, bivariate_density_surfaces. rewrite E. auto.
Qed.
Print Assumptions C86_default_states.

(** * C87 *)

(** What is known about estimated densities: there is none without data. *)
Definition needs_data (gaussian_kde : list (option R) -> list (option R) -> result (R -> R -> R)) : Prop :=
  forall xs ys density, gaussian_kde xs ys = Ok density -> numbers xs <> [] /\ numbers ys <> [].

(** The contour of a density estimated from the values [xs] and [ys]: the coordinates
    cover the values; the entries are values of the density. *)
Definition is_contour (gaussian_kde : list (option R) -> list (option R) -> result (R -> R -> R))
    (n_points : nat) (xs ys : list (option R)) (c : contour) : Prop :=
  exists density, gaussian_kde xs ys = Ok density /\
    covers (numbers xs) n_points (ct_x c) /\ covers (numbers ys) n_points (ct_y c) /\
    forall i j x y, nth_error (ct_x c) i = Some x -> nth_error (ct_y c) j = Some y ->
      at_position (ct_z c) i j (density x y).

(** The traces of a figure: one for each scenario whose density can be estimated. *)
Inductive contours_of gaussian_kde (n_colors n_points t : nat) (f g : string)
  : nat -> list (scenario * table) -> list contour -> Prop :=
| no_scenarios k : contours_of gaussian_kde n_colors n_points t f g k [] []
| drawn k sc st scs c cs :
    k < n_colors -> 1 <= n_points ->
    is_contour gaussian_kde n_points (values_in t st f) (values_in t st g) c ->
    contours_of gaussian_kde n_colors n_points t f g (S k) scs cs ->
    contours_of gaussian_kde n_colors n_points t f g k ((sc, st) :: scs) (c :: cs)
| not_drawn k sc st scs cs :
    n_colors <= k \/ n_points = 0 \/
    (exists e, gaussian_kde (values_in t st f) (values_in t st g) = Err e) ->
    contours_of gaussian_kde n_colors n_points t f g (S k) scs cs ->
    contours_of gaussian_kde n_colors n_points t f g k ((sc, st) :: scs) cs.

Lemma factor_pairs_ok fs : NoDup (factor_pairs fs) /\
  forall f g, In (f, g) (factor_pairs fs) <-> In f fs /\ In g fs /\ f <> g.
Proof.
  unfold factor_pairs. set (l := filter _ _).
  assert (G : forall l acc, NoDup acc ->
    NoDup (fold_left (fun acc pr => if existsb (pair_eqb pr) acc then acc else acc ++ [pr]) l acc) /\
    forall pr, In pr (fold_left (fun acc pr => if existsb (pair_eqb pr) acc then acc else acc ++ [pr]) l acc) <-> In pr acc \/ In pr l).
  { clear. induction l as [|x l IH]; intros acc Hacc; cbn [fold_left]; [simpl; intuition|].
    destruct (existsb (pair_eqb x) acc) eqn:E.
    - destruct (IH acc Hacc) as [H1 H2]. split; [exact H1|]. intros pr. rewrite H2. simpl. split; [tauto|].
      intros [H|[<-|H]]; auto. left. apply existsb_exists in E as (y & Hy & E). apply pair_eqb_spec in E. now subst.
    - destruct (IH (acc ++ [x])) as [H1 H2].
      { apply NoDup_app_intro; [exact Hacc|repeat constructor; intros []|]. intros y Hy [<-|[]].
        assert (existsb (pair_eqb x) acc = true) by (apply existsb_exists; exists x; split; [exact Hy|now apply pair_eqb_spec]). congruence. }
      split; [exact H1|]. intros pr. rewrite H2, in_app_iff. simpl. tauto. }
  destruct (G l [] (NoDup_nil _)) as [H1 H2]. split; [exact H1|]. intros f g. rewrite H2. unfold l.
  rewrite filter_In, in_prod_iff. cbn [fst snd In]. rewrite negb_true_iff. rewrite String.eqb_neq. tauto.
Qed.

Lemma nth_error_map_const {A B} (b : B) (l : list A) k : k < length l -> nth_error (map (fun _ => b) l) k = Some b.
Proof.
  intros H. rewrite nth_error_map. destruct (nth_error l k) eqn:E; [reflexivity|]. apply nth_error_None in E. lia.
Qed.

Lemma kde_mesh kde nan xs ys n : needs_data kde ->
  match calculate_kde kde nan xs ys n with
  | Err e => kde xs ys = Err e
  | Ok m => exists density gx gy, kde xs ys = Ok density /\ covers (numbers xs) n gx /\ covers (numbers ys) n gy /\
      ms_x m = map (fun x => map (fun _ => x) gy) gx /\ ms_y m = map (fun _ => gy) gx /\
      ms_z m = map (fun x => map (fun y => density x y) gy) gx
  end.
Proof.
  intros Hkde. unfold calculate_kde. destruct (kde xs ys) as [d|e] eqn:E; cbn [rbind]; [|reflexivity].
  destruct (Hkde xs ys d E) as [Hx Hy]. eexists d, _, _. split; [reflexivity|]. cbn [ms_x ms_y ms_z].
  pose proof (limits nan xs Hx) as Lx. pose proof (limits nan ys Hy) as Ly.
  split; [|split; [|repeat split]].
  - eexists _, _. split; [exact Lx|]. split; [apply linspace_length|]. intros k x. apply linspace_spaced.
  - eexists _, _. split; [exact Ly|]. split; [apply linspace_length|]. intros k x. apply linspace_spaced.
Qed.

Lemma mesh_contour_ok gx gy z : gx <> [] -> gy <> [] ->
  mesh_contour (mk_mesh (map (fun x => map (fun _ => x) gy) gx) (map (fun _ => gy) gx) z) = Ok (mk_contour gx gy z).
Proof.
  intros Hx Hy. unfold mesh_contour. cbn [ms_x ms_y ms_z]. rewrite mapM_map.
  assert (E : mapM (fun x => nth_err (map (fun _ => x) gy) 0) gx = Ok gx).
  { destruct gy as [|y gy]; [contradiction|]. rewrite (mapM_ext _ (fun x => Ok x)) by reflexivity. rewrite mapM_Ok_map. now rewrite map_id. }
  rewrite E. cbn [rbind]. destruct gx as [|x gx]; [contradiction|]. reflexivity.
Qed.

(** There is a figure for each pair of different factors, in both orders, and only for
    those. The first factor of a pair is that of the horizontal axis. There is a contour
    for each scenario, estimated from the values of both factors in the period; the
    failure to estimate a density concerns no other contour. *)
Theorem C87_contours :
  forall gaussian_kde nan neg_inf qr custom n_colors md p data params t states factors observed_factors fs n_points,
    needs_data gaussian_kde ->
    plot_setting md p data states factors observed_factors fs ->
    exists plots,
      bivariate_density_contours gaussian_kde nan neg_inf qr custom n_colors md data params t
        factors observed_factors (Some states) n_points = Ok plots /\
      NoDup (map fst plots) /\
      (forall f g, In (f, g) (map fst plots) <-> In f fs /\ In g fs /\ f <> g) /\
      forall f g fig, In ((f, g), fig) plots ->
        cf_xtitle fig = f /\ cf_ytitle fig = g /\
        contours_of gaussian_kde n_colors n_points t f g 0 (scenarios_in t states) (cf_traces fig).
Proof.
  intros kde nan neg_inf qr custom n_colors md p data params t states factors observed fs n Hkde Hset.
  unfold bivariate_density_contours. rewrite (plot_input_ok _ _ _ _ md p data params t states factors observed fs Hset).
  cbn [rbind fst snd]. destruct Hset as (Hp & Ha & Hne & Hnd & (Hnn & Hnames & Hcols) & Hd).
  destruct (factor_pairs_ok fs) as [Hpn Hpi].
  eexists. split; [reflexivity|]. rewrite map_map. cbn [fst]. rewrite map_id. split; [exact Hpn|]. split; [exact Hpi|].
  intros f g fig Hin. apply in_map_iff in Hin as ([f' g'] & Ef & Hin). injection Ef as -> -> <-. cbn [cf_xtitle cf_ytitle cf_traces fst snd].
  split; [reflexivity|]. split; [reflexivity|]. apply Hpi in Hin as (Hf & Hg & _).
  rewrite (stacked_column t (tables_of states) fs f Hnd Hf), (stacked_column t (tables_of states) fs g Hnd Hg). cbn [rbind].
  rewrite (stacked_scenarios t (tables_of states) fs Hnames).
  change (filter (fun st => has_rows t (snd st)) (tables_of states)) with (scenarios_in t states).
  assert (Hsub : forall sc st, In (sc, st) (scenarios_in t states) -> In (sc, st) (tables_of states)).
  { intros sc st H. unfold scenarios_in in H. now apply filter_In in H. }
  unfold enumerate. generalize 0 as k. revert Hsub. generalize (scenarios_in t states) as scs.
  induction scs as [|[sc st] scs IH]; intros Hsub k; [constructor|].
  cbn [map length seq combine flat_map fst snd].
  rewrite (stacked_where t (tables_of states) fs f sc st Hnames) by (apply Hsub; now left).
  rewrite (stacked_where t (tables_of states) fs g sc st Hnames) by (apply Hsub; now left).
  assert (IH' := IH (fun sc st H => Hsub sc st (or_intror H)) (S k)). clear IH.
  pose proof (kde_mesh kde nan (values_in t st f) (values_in t st g) n Hkde) as Hm.
  destruct (calculate_kde kde nan (values_in t st f) (values_in t st g) n) as [m|e]; cbn [rbind].
  2:{ apply not_drawn; [eauto|exact IH']. }
  destruct Hm as (d & gx & gy & Ed & Hx & Hy & Ex & Ey & Ez).
  assert (Hlx : length gx = n) by (destruct Hx as (? & ? & _ & H & _); exact H).
  assert (Hly : length gy = n) by (destruct Hy as (? & ? & _ & H & _); exact H).
  destruct n as [|n].
  { destruct gx; [|discriminate]. destruct gy; [|discriminate]. destruct m as [mx my mz]. cbn [ms_x ms_y ms_z] in *. subst.
    cbn. apply not_drawn; [auto|exact IH']. }
  destruct m as [mx my mz]. cbn [ms_x ms_y ms_z] in *. subst mx my mz.
  rewrite mesh_contour_ok by (intros ->; discriminate). cbn [rbind].
  destruct (Nat.ltb_spec k n_colors) as [Hk|Hk].
  2:{ apply not_drawn; [auto|exact IH']. }
  cbn [app]. apply drawn; [exact Hk|lia| |exact IH'].
  exists d. split; [exact Ed|]. cbn [ct_x ct_y ct_z]. split; [exact Hx|]. split; [exact Hy|].
  intros i j x y Hi Hj. unfold at_position. eexists. rewrite nth_error_map, Hi. split; [reflexivity|].
  now rewrite nth_error_map, Hj.
Qed.
Print Assumptions C87_contours.

(** Surfaces: only for a single table, and with all of its values. *)
Theorem C87_surfaces :
  forall gaussian_kde nan neg_inf qr custom md p data params t states factors observed_factors fs n_points,
    needs_data gaussian_kde ->
    plot_setting md p data (OneTable states) factors observed_factors fs ->
    exists plots,
      bivariate_density_surfaces gaussian_kde nan neg_inf qr custom md data params t
        factors observed_factors (Some (OneTable states)) n_points = Ok plots /\
      NoDup (map fst plots) /\
      (forall f g, In (f, g) (map fst plots) <-> In f fs /\ In g fs /\ f <> g) /\
      forall f g fig, In ((f, g), fig) plots ->
        sf_xtitle fig = f /\ sf_ytitle fig = g /\
        let xs := values_in t states f in
        let ys := values_in t states g in
        (sf_traces fig = [] <-> exists e, gaussian_kde xs ys = Err e) /\
        forall m, In m (sf_traces fig) -> sf_traces fig = [m] /\
          exists density gx gy, gaussian_kde xs ys = Ok density /\
            covers (numbers xs) n_points gx /\ covers (numbers ys) n_points gy /\
            (** each point of the grid is shown, with the density as its height *)
            (forall x y, In x gx -> In y gy -> surface_shows m x y (density x y)) /\
            (forall x y z, surface_shows m x y z -> In x gx /\ In y gy /\ z = density x y).
Proof.
  intros kde nan neg_inf qr custom md p data params t states factors observed fs n Hkde Hset.
  unfold bivariate_density_surfaces. cbn [rbind].
  rewrite (plot_input_ok _ _ _ _ md p data params t (OneTable states) factors observed fs Hset).
  cbn [rbind fst snd]. destruct Hset as (Hp & Ha & Hne & Hnd & (Hnn & Hnames & Hcols) & Hd).
  destruct (factor_pairs_ok fs) as [Hpn Hpi].
  eexists. split; [reflexivity|]. rewrite map_map. cbn [fst]. rewrite map_id. split; [exact Hpn|]. split; [exact Hpi|].
  intros f g fig Hin. apply in_map_iff in Hin as ([f' g'] & Ef & Hin). injection Ef as -> -> <-. cbn [sf_xtitle sf_ytitle sf_traces fst snd].
  split; [reflexivity|]. split; [reflexivity|]. apply Hpi in Hin as (Hf & Hg & _).
  rewrite (stacked_column t [(ScNone, states)] fs f Hnd Hf), (stacked_column t [(ScNone, states)] fs g Hnd Hg).
  cbn [rbind tables_of flat_map snd]. rewrite !app_nil_r. cbv zeta.
  pose proof (kde_mesh kde nan (values_in t states f) (values_in t states g) n Hkde) as Hm.
  destruct (calculate_kde kde nan (values_in t states f) (values_in t states g) n) as [m|e].
  2:{ split; [split; [eauto|reflexivity]|]. intros m []. }
  destruct Hm as (d & gx & gy & Ed & Hx & Hy & Ex & Ey & Ez).
  split. { split; [discriminate|]. intros [e E]. congruence. }
  intros m' [<-|[]]. split; [reflexivity|]. exists d, gx, gy. split; [exact Ed|]. split; [exact Hx|]. split; [exact Hy|].
  destruct m as [mx my mz]. unfold surface_shows, at_position. cbn [ms_x ms_y ms_z] in *. subst mx my mz. split.
  - intros x y Hinx Hiny. apply In_nth_error in Hinx as [i Hi]. apply In_nth_error in Hiny as [j Hj]. exists i, j.
    rewrite !nth_error_map, Hi. cbn [option_map]. repeat split; eexists; (split; [reflexivity|]).
    + now rewrite nth_error_map, Hj.
    + exact Hj.
    + now rewrite nth_error_map, Hj.
  - intros x y z (i & j & (r1 & H1 & H1') & (r2 & H2 & H2') & (r3 & H3 & H3')).
    rewrite nth_error_map in H1, H2, H3. destruct (nth_error gx i) as [x'|] eqn:Ei; [|discriminate].
    cbn [option_map] in *. injection H1 as <-. injection H2 as <-. injection H3 as <-.
    rewrite nth_error_map in H1', H3'. rewrite H2' in H1', H3'. cbn [option_map] in *. injection H1' as <-. injection H3' as <-.
    apply nth_error_In in Ei, H2'. auto.
Qed.
Print Assumptions C87_surfaces.

Theorem C87_surfaces_need_one_table :
  forall gaussian_kde nan neg_inf qr custom md data params t states factors observed_factors n_points,
    (forall st, states <> OneTable st) ->
    bivariate_density_surfaces gaussian_kde nan neg_inf qr custom md data params t
      factors observed_factors (Some states) n_points = Err ValueError.
Proof.
  intros kde nan neg_inf qr custom md data params t [st|d|l] factors observed n H; [now destruct (H st)|reflexivity|reflexivity].
Qed.
Print Assumptions C87_surfaces_need_one_table.

(** * C64 *)

(** An estimated density that depends on the first factor. *)
Definition first_value (xs ys : list (option R)) : result (R -> R -> R) :=
  match numbers xs, numbers ys with
  | _ :: _, _ :: _ => Ok (fun x _ => x)
  | _, _ => Err ValueError
  end.

Definition two_states : table :=
  mk_table ["id"; "period"; "fac1"; "fac2"]
    [fun c => if String.eqb c "id" then CInt 0 else if String.eqb c "period" then CInt 1
              else if String.eqb c "fac1" then CNum 1%R else CNum 4%R;
     fun c => if String.eqb c "id" then CInt 1 else if String.eqb c "period" then CInt 1
              else if String.eqb c "fac1" then CNum 2%R else CNum 6%R].

Definition no_data : frame R := mk_frame ["y1"] [] [] [].

Lemma two_states_setting : exists p,
  plot_setting model2 p no_data (OneTable two_states) (Some ["fac1"; "fac2"]) false ["fac1"; "fac2"].
Proof.
  assert (E : exists p, process_model model2 = Ok p).
  { destruct (process_model model2) as [p|e] eqn:E; [eauto|]. vm_compute in E. discriminate. }
  destruct E as [p Hp]. exists p. split; [exact Hp|]. split; [reflexivity|]. split; [discriminate|].
  split; [repeat constructor; simpl; intuition discriminate|]. split.
  - split; [discriminate|]. split; [repeat constructor; simpl; tauto|]. intros name st [E|[]] c Hc. injection E as _ <-.
    simpl in *. tauto.
  - intros f Hf. simpl in *. intuition (subst; discriminate).
Qed.

Example C86_C87_nonvacuous :
  needs_data first_value /\
  (exists p, plot_setting model2 p no_data (OneTable two_states) (Some ["fac1"; "fac2"]) false ["fac1"; "fac2"]) /\
  scenarios_in 1 (OneTable two_states) = [(ScNone, two_states)] /\
  values_in 1 two_states "fac2" = [Some 4%R; Some 6%R].
Proof.
  split; [|split; [exact two_states_setting|split; reflexivity]].
  intros xs ys d H. unfold first_value in H. destruct (numbers xs), (numbers ys); split; discriminate.
Qed.

Lemma contours_of_In kde n_colors n t f g k scs cs c : contours_of kde n_colors n t f g k scs cs -> In c cs ->
  exists sc st, In (sc, st) scs /\ is_contour kde n (values_in t st f) (values_in t st g) c.
Proof.
  intros H. induction H as [k|k sc st scs c' cs Hk Hn Hc H IH|k sc st scs cs Hf H IH]; intros Hin; [destruct Hin| |].
  - destruct Hin as [<-|Hin]; [exists sc, st; split; [now left|exact Hc]|].
    destruct (IH Hin) as (sc' & st' & Hs & Hc'). exists sc', st'. split; [now right|exact Hc'].
  - destruct (IH Hin) as (sc' & st' & Hs & Hc'). exists sc', st'. split; [now right|exact Hc'].
Qed.

Lemma at_position_unique m i j v w : at_position m i j v -> at_position m i j w -> v = w.
Proof. intros (r & H1 & H2) (r' & H1' & H2'). congruence. Qed.

(** A contour does not show the density at the coordinates of the plot. *)
Theorem C64_contours_refuted :
  exists gaussian_kde md p data states fs,
    needs_data gaussian_kde /\
    plot_setting md p data (OneTable states) (Some fs) false fs /\
    forall nan neg_inf qr custom n_colors params, 1 <= n_colors ->
    exists plots f g fig c density x y v,
      bivariate_density_contours gaussian_kde nan neg_inf qr custom n_colors md data params 1
        (Some fs) false (Some (OneTable states)) 2 = Ok plots /\
      In ((f, g), fig) plots /\ cf_xtitle fig = f /\ cf_ytitle fig = g /\ In c (cf_traces fig) /\
      gaussian_kde (values_in 1 states f) (values_in 1 states g) = Ok density /\
      contour_shows c x y v /\ v <> density x y.
Proof.
  destruct two_states_setting as [p Hset]. destruct C86_C87_nonvacuous as (Hkde & _).
  exists first_value, model2, p, no_data, two_states, ["fac1"; "fac2"]. split; [exact Hkde|]. split; [exact Hset|].
  intros nan neg_inf qr custom n_colors params Hcol.
  destruct (C87_contours first_value nan neg_inf qr custom n_colors model2 p no_data params 1 (OneTable two_states)
              (Some ["fac1"; "fac2"]) false ["fac1"; "fac2"] 2 Hkde Hset) as (plots & E & _ & Hpairs & Hfig).
  assert (Hin : In ("fac1", "fac2") (map fst plots)).
  { apply Hpairs. split; [now left|]. split; [right; now left|discriminate]. }
  apply in_map_iff in Hin as ([[f g] fig] & Efg & Hin). cbn [fst] in Efg. injection Efg as -> ->.
  destruct (Hfig "fac1" "fac2" fig Hin) as (Hx & Hy & Htr).
  change (scenarios_in 1 (OneTable two_states)) with [(ScNone, two_states)] in Htr.
  inversion Htr as [|? ? ? ? c cs Hk Hn Hc Hrest|? ? ? ? ? Hf Hrest]; subst.
  2:{ exfalso. destruct Hf as [F|[F|[e F]]]; [lia|discriminate|]. vm_compute in F. discriminate. }
  destruct Hc as (d & Ed & (lo & hi & (Hlo & Hhi & Hlim) & Hlx & Hsp) & (lo' & hi' & _ & Hly & _) & Hz).
  destruct (ct_x c) as [|x0 [|x1 [|? ?]]] eqn:Ex; try discriminate.
  destruct (ct_y c) as [|y0 [|y1 [|? ?]]] eqn:Ey; try discriminate.
  assert (Edx : forall x y, d x y = x).
  { unfold first_value in Ed. change (numbers (values_in 1 two_states "fac1")) with [1%R; 2%R] in Ed.
    change (numbers (values_in 1 two_states "fac2")) with [4%R; 6%R] in Ed. injection Ed as <-. reflexivity. }
  exists plots, "fac1", "fac2", fig, c, d, x1, y0, (d x0 y1). split; [exact E|]. split; [exact Hin|]. split; [exact Hx|].
  split; [exact Hy|]. split; [match goal with H : _ = cf_traces fig |- _ => rewrite <- H; now left end|]. split; [exact Ed|]. split.
  - exists 0, 1. rewrite Ex, Ey. split; [reflexivity|]. split; [reflexivity|]. apply (Hz 0 1); reflexivity.
  - rewrite !Edx. destruct (Hsp 0 x0 eq_refl) as (H0 & _). destruct (Hsp 1 x1 eq_refl) as (_ & H1 & _).
    rewrite (H0 eq_refl), (H1 eq_refl) by lia.
    change (numbers (values_in 1 two_states "fac1")) with [1%R; 2%R] in Hlim.
    pose proof (Hlim 1%R (or_introl eq_refl)) as [? _]. pose proof (Hlim 2%R (or_intror (or_introl eq_refl))) as [_ ?]. lra.
Qed.
Print Assumptions C64_contours_refuted.

(** What a contour shows: the densities are transposed. They are right if the density is
    symmetric and the axes are equal. *)
Theorem C64_contours_partial :
  forall gaussian_kde nan neg_inf qr custom n_colors md p data params t states factors observed_factors fs n_points plots,
    needs_data gaussian_kde ->
    plot_setting md p data states factors observed_factors fs ->
    bivariate_density_contours gaussian_kde nan neg_inf qr custom n_colors md data params t
      factors observed_factors (Some states) n_points = Ok plots ->
    forall f g fig c, In ((f, g), fig) plots -> In c (cf_traces fig) ->
    exists sc st density, In (sc, st) (tables_of states) /\
      gaussian_kde (values_in t st f) (values_in t st g) = Ok density /\
      (forall x y v, contour_shows c x y v ->
         exists i j x' y', nth_error (ct_x c) j = Some x /\ nth_error (ct_y c) i = Some y /\
           nth_error (ct_x c) i = Some x' /\ nth_error (ct_y c) j = Some y' /\ v = density x' y') /\
      ((forall x y, density x y = density y x) -> ct_x c = ct_y c ->
       forall x y v, contour_shows c x y v -> v = density x y).
Proof.
  intros kde nan neg_inf qr custom n_colors md p data params t states factors observed fs n plots Hkde Hset E f g fig c Hin Hc.
  destruct (C87_contours kde nan neg_inf qr custom n_colors md p data params t states factors observed fs n Hkde Hset)
    as (plots' & E' & _ & _ & Hfig).
  rewrite E in E'. injection E' as <-. destruct (Hfig f g fig Hin) as (_ & _ & Htr).
  destruct (contours_of_In _ _ _ _ _ _ _ _ _ c Htr Hc) as (sc & st & Hs & d & Ed & Hx & Hy & Hz).
  exists sc, st, d. unfold scenarios_in in Hs. apply filter_In in Hs as [Hs _]. split; [exact Hs|]. split; [exact Ed|].
  destruct Hx as (? & ? & _ & Hlx & _). destruct Hy as (? & ? & _ & Hly & _).
  assert (G : forall x y v, contour_shows c x y v ->
         exists i j x' y', nth_error (ct_x c) j = Some x /\ nth_error (ct_y c) i = Some y /\
           nth_error (ct_x c) i = Some x' /\ nth_error (ct_y c) j = Some y' /\ v = d x' y').
  { intros x' y' v (i & j & Hj & Hi & Hv).
    destruct (nth_error (ct_x c) i) as [x''|] eqn:Exi.
    2:{ apply nth_error_None in Exi. assert (i < length (ct_y c)) by (apply nth_error_Some; congruence). lia. }
    destruct (nth_error (ct_y c) j) as [y''|] eqn:Eyj.
    2:{ apply nth_error_None in Eyj. assert (j < length (ct_x c)) by (apply nth_error_Some; congruence). lia. }
    exists i, j, x'', y''. repeat split; try assumption. apply (at_position_unique _ _ _ _ _ Hv). now apply Hz. }
  split; [exact G|]. intros Hsym Heq x' y' v Hv. destruct (G x' y' v Hv) as (i & j & x'' & y'' & H1 & H2 & H3 & H4 & ->).
  rewrite Heq in *. assert (x'' = y') by congruence. assert (x' = y'') by congruence. subst. apply Hsym.
Qed.
Print Assumptions C64_contours_partial.
