(** Properties of the correlations in correlation_heatmap.py: C72 - C77. *)
Require Import Reals String Arith ZArith QArith Bool List Lia Lra Permutation Sorted.
From Verif Require Import PyBase ModelSpec ProcessModel CheckModel SpecModel SpecParse SpecIndex
  ParamsIndex ParseParams ParamsVec ProcessData SpecData SpecTransition ListFacts StringFacts ProcessModelFacts
  AcceptFacts IndexFacts DataFacts SpecFacts PropsParse ScheduleFacts Heatmap SpecHeatmap HeatmapFacts
  HeatmapDataFacts HeatmapUnits PropsData PropsSpec ExampleModels.
Import ListNotations.
Open Scope string_scope.
Open Scope list_scope.
Open Scope nat_scope.

(** ** C72 *)

(** The cells of the matrix are the correlations of the measurements and observed
    factors in the chosen periods over the individuals of the data set. *)
Theorem C72_measurement_correlations md p n df ids lv factors latent observed periods ts :
  heatmap_setting md p n df ids lv -> selects md factors latent observed ->
  chosen_periods n periods ts -> NoDup ts -> ts <> [] ->
  (forall t, In t ts -> exists v, In (t, v) (equations md n)) ->
  (forall v t, In (v, t) (shown_measurements md n latent observed ts) -> In v (fr_columns df)) ->
  exists c, get_measurements_corr df md factors periods = Ok c /\
    correlates ids
      (map (fun vt => labelled ts (fst vt) (snd vt)) (shown_measurements md n latent observed ts))
      (map (fun vt => data_variable df lv (fst vt) (snd vt))
           (shown_measurements md n latent observed ts)) c.
Proof.
  intros Hset Hsel Hper Hnd Hne Heq Hcols.
  assert (Hset' := Hset). destruct Hset' as (Hwf & Hp & Hn & Hclash & Hdf & Hu & Hids & Hlv).
  unfold get_measurements_corr. rewrite Hp. cbn [rbind].
  rewrite (process_periods_ok md p n Hp Hn periods ts Hper).
  rewrite (pre_process_periods df ids lv Hdf Hu Hids Hlv). cbn [rbind].
  rewrite (process_factors_ok md p Hp _ _ _ Hsel). cbn [rbind fst snd].
  set (items := fun t => map (fun v => (v, data_variable df lv v t))
                          (flat_map (measurements_of md n t) latent ++ observed)).
  rewrite (stack_periods_ok ids _ ts items Hne).
  - cbn [rbind]. eexists. split; [reflexivity|].
    assert (H := corr_table_of ids (stacked ts items)).
    assert (E1 : map fst (stacked ts items) =
      map (fun vt => labelled ts (fst vt) (snd vt)) (shown_measurements md n latent observed ts)).
    { unfold stacked, shown_measurements, items. rewrite !map_flat_map. apply flat_map_ext. intros t.
      rewrite !map_map. reflexivity. }
    assert (E2 : map snd (stacked ts items) =
      map (fun vt => data_variable df lv (fst vt) (snd vt)) (shown_measurements md n latent observed ts)).
    { unfold stacked, shown_measurements, items. rewrite !map_flat_map. apply flat_map_ext. intros t.
      rewrite !map_map. reflexivity. }
    rewrite <- E1, <- E2. exact H.
  - intros t Ht. apply (measurement_single_ok md p n df ids lv Hset latent observed ts t Hnd Ht).
    + intros f Hf. apply (Hcols f t). unfold shown_measurements. apply in_flat_map. exists t.
      split; [exact Ht|]. apply in_map_iff. exists f. split; [reflexivity|]. apply in_app_iff. now right.
    + intros f v Hf Hv. apply (Hcols v t). unfold shown_measurements. apply in_flat_map. exists t.
      split; [exact Ht|]. apply in_map_iff. exists v. split; [reflexivity|]. apply in_app_iff. left.
      apply in_flat_map. exists f. split; [exact Hf|]. now apply (In_measurements_of md p n).
    + now apply Heq.
Qed.
Print Assumptions C72_measurement_correlations.

(** Duplicate observations raise ValueError. Otherwise, an unknown factor raises
    UnboundLocalError, and periods without measurement or anchoring equations raise
    KeyError, even if they are not chosen but implied by None. *)
Theorem C72_errors md p n df ids lv factors latent observed periods ts :
  wf_dicts md -> process_model md = Ok p -> has_n_periods md n -> wf_frame df -> ids_of df ids ->
  levels_of df lv -> chosen_periods n periods ts ->
  (~ unique_index df -> get_measurements_corr df md factors periods = Err ValueError) /\
  (unique_index df ->
   (forall s, factors = OneFactor s -> s <> "" -> ~ In s (latent_of md) -> ~ In s (observed_of md) ->
      get_measurements_corr df md factors periods = Err NameError) /\
   (selects md factors latent observed ->
    (ts = [] -> get_measurements_corr df md factors periods = Err ValueError) /\
    (forall t, In t ts -> (forall v, ~ In (t, v) (equations md n)) ->
       get_measurements_corr df md factors periods = Err KeyError))).
Proof.
  intros Hwf Hp Hn Hdf Hids Hlv Hper. unfold get_measurements_corr. rewrite Hp. cbn [rbind].
  rewrite (process_periods_ok md p n Hp Hn periods ts Hper). split.
  { intros Hu. now rewrite (pre_process_dup df lv Hdf Hlv). }
  intros Hu. rewrite (pre_process_periods df ids lv Hdf Hu Hids Hlv). cbn [rbind].
  destruct (p_labels_eq md p Hp) as (El & Eo & _). split.
  { intros s -> Hs H1 H2. unfold process_factors. rewrite El, Eo.
    rewrite (proj2 (String.eqb_neq _ _) Hs), (proj2 (smem_false _ _) H1), (proj2 (smem_false _ _) H2).
    reflexivity. }
  intros Hsel. rewrite (process_factors_ok md p Hp _ _ _ Hsel). cbn [rbind fst snd]. split.
  { intros ->. reflexivity. }
  intros t Ht Hno.
  set (single := measurement_data_single (fr_columns df) (balanced df ids lv ts) (p_update p) latent observed).
  assert (Hall : forall s, (exists d, single s = Ok d) \/ single s = Err KeyError).
  { intros s. unfold single, measurement_data_single, period_info.
    destruct (filter _ (p_update p)) as [|r l]; [now right|]. cbn [rbind].
    induction (flat_map (factor_measurements (r :: l)) latent ++ observed) as [|v vs IH];
      [left; eexists; reflexivity|].
    cbn [mapM]. unfold get_named_col at 1 3, get_col.
    destruct (smem v (fr_columns df)); [|now right]. cbn [rbind].
    destruct IH as [[d IH]|IH]; rewrite IH; cbn [rbind]; [left; eexists; reflexivity|now right]. }
  rewrite (stack_periods_err single ts KeyError t Ht); [reflexivity| |].
  - intros s _. apply Hall.
  - unfold single, measurement_data_single. now rewrite (period_info_none md p n Hwf Hp Hn t Hno).
Qed.
Print Assumptions C72_errors.

(** A data set without a needed column raises KeyError. *)
Theorem C72_missing_column md p n df ids lv factors latent observed periods ts v t :
  heatmap_setting md p n df ids lv -> selects md factors latent observed ->
  chosen_periods n periods ts -> In (v, t) (shown_measurements md n latent observed ts) ->
  ~ In v (fr_columns df) -> get_measurements_corr df md factors periods = Err KeyError.
Proof.
  intros Hset Hsel Hper Hvt Hv.
  destruct Hset as (Hwf & Hp & Hn & Hclash & Hdf & Hu & Hids & Hlv).
  unfold get_measurements_corr. rewrite Hp. cbn [rbind].
  rewrite (process_periods_ok md p n Hp Hn periods ts Hper).
  rewrite (pre_process_periods df ids lv Hdf Hu Hids Hlv). cbn [rbind].
  rewrite (process_factors_ok md p Hp _ _ _ Hsel). cbn [rbind fst snd].
  set (single := measurement_data_single (fr_columns df) (balanced df ids lv ts) (p_update p) latent observed).
  assert (Hgen : forall s vs,
    (exists d, mapM (get_named_col (fr_columns df) (balanced df ids lv ts) s) vs = Ok d /\
       (forall v, In v vs -> In v (fr_columns df))) \/
    mapM (get_named_col (fr_columns df) (balanced df ids lv ts) s) vs = Err KeyError).
  { intros s vs. induction vs as [|w vs IH]; [left; eexists; split; [reflexivity|intros ? []]|].
    cbn [mapM]. unfold get_named_col at 1 3, get_col.
    destruct (smem w (fr_columns df)) eqn:Ew; [|now right]. cbn [rbind]. apply smem_In in Ew.
    destruct IH as [(d & IH & Hin)|IH]; rewrite IH; cbn [rbind]; [left|now right].
    eexists. split; [reflexivity|]. intros x [<-|Hx]; auto. }
  assert (Hall : forall s, (exists d, single s = Ok d) \/ single s = Err KeyError).
  { intros s. unfold single, measurement_data_single, period_info.
    destruct (filter _ (p_update p)) as [|r l]; [now right|]. cbn [rbind].
    destruct (Hgen s (flat_map (factor_measurements (r :: l)) latent ++ observed)) as [(d & H & _)|H];
      rewrite H; [left; eexists|right]; reflexivity. }
  unfold shown_measurements in Hvt. apply in_flat_map in Hvt as (s & Hs & Hvs).
  apply in_map_iff in Hvs as (v' & [= -> ->] & Hvs).
  rewrite (stack_periods_err single ts KeyError t Hs); [reflexivity| |].
  - intros k _. apply Hall.
  - unfold single, measurement_data_single.
    destruct (period_info (p_update p) t) as [info|e] eqn:Ei.
    + cbn [rbind]. assert (info = filter (fun r => u_period r =? t) (p_update p)) as ->.
      { revert Ei. unfold period_info. destruct (filter _ _); intros Ei; [discriminate|congruence]. }
      rewrite (flat_map_ext _ (measurements_of md n t))
        by (intros f; now apply (factor_measurements_eq md p n)).
      destruct (Hgen t (flat_map (measurements_of md n t) latent ++ observed)) as [(d & _ & Hin)|H];
        [|exact H].
      exfalso. now apply Hv, Hin.
    + revert Ei. unfold period_info. destruct (filter _ _); intros Ei; [|discriminate]. cbn [rbind].
      injection Ei as <-. reflexivity.
Qed.
Print Assumptions C72_missing_column.

(** ** C73 *)

(** Every matrix the functions return is a correlation matrix: symmetric, with ones on
    the diagonal and cells between -1 and 1, except for undefined cells. *)
Definition correlation_matrix (c : corr_df) : Prop :=
  co_index c = co_columns c /\
  length (co_cells c) = length (co_index c) /\
  (forall row, In row (co_cells c) -> length row = length (co_columns c)) /\
  (forall i j x, entry (co_cells c) i j x -> entry (co_cells c) j i x) /\
  (forall i j r, entry (co_cells c) i j (Some r) -> (-1 <= r <= 1)%R) /\
  (forall i r, entry (co_cells c) i i (Some r) -> r = 1%R).

Lemma corr_matrix df : correlation_matrix (corr df).
Proof.
  unfold correlation_matrix, corr. cbn [co_index co_columns co_cells].
  assert (He : forall i j x,
    entry (map (fun a => map (fun b => pearson (snd a) (snd b)) df) df) i j x ->
    exists a b, nth_error df i = Some a /\ nth_error df j = Some b /\ x = pearson (snd a) (snd b)).
  { intros i j x (row & H1 & H2). rewrite nth_error_map in H1.
    destruct (nth_error df i) as [a|] eqn:Ea; [|discriminate]. injection H1 as <-.
    rewrite nth_error_map in H2. destruct (nth_error df j) as [b|] eqn:Eb; [|discriminate].
    injection H2 as <-. exists a, b. auto. }
  repeat split.
  - now rewrite !map_length.
  - intros row Hr. apply in_map_iff in Hr as (a & <- & _). now rewrite !map_length.
  - intros i j x H. apply He in H as (a & b & Ha & Hb & ->). exists (map (fun a => pearson (snd b) (snd a)) df).
    rewrite nth_error_map, Hb. split; [reflexivity|]. rewrite nth_error_map, Ha.
    simpl. f_equal. apply pearson_sym.
  - apply He in H as (a & b & _ & _ & E). symmetry in E. now apply pearson_bound in E.
  - apply He in H as (a & b & _ & _ & E). symmetry in E. now apply pearson_bound in E.
  - intros i r H. apply He in H as (a & b & Ha & Hb & E). rewrite Ha in Hb. injection Hb as <-.
    symmetry in E. now apply pearson_self in E.
Qed.

Theorem C73_correlation_matrix df md params factors periods c :
  get_measurements_corr df md factors periods = Ok c \/
  get_quasi_scores_corr df md factors periods = Ok c \/
  get_scores_corr df params md factors periods = Ok c ->
  correlation_matrix c.
Proof.
  unfold get_measurements_corr, get_quasi_scores_corr, get_scores_corr.
  intros [H|[H|H]];
    repeat (apply rbind_ok in H; destruct H as (? & _ & H)); injection H as <-; apply corr_matrix.
Qed.
Print Assumptions C73_correlation_matrix.

(** ** C74 *)

(** The quasi scores of latent factors are the averages of their standardized
    measurements. *)
Theorem C74_quasi_scores md p n df ids lv factors latent observed periods ts :
  heatmap_setting md p n df ids lv -> selects md factors latent observed ->
  chosen_periods n periods ts -> NoDup ts -> ts <> [] -> latent ++ observed <> [] ->
  (forall t, In t ts -> exists v, In (t, v) (equations md n)) ->
  (forall v t, In (v, t) (shown_measurements md n latent observed ts) -> In v (fr_columns df)) ->
  exists c, get_quasi_scores_corr df md factors periods = Ok c /\
    correlates ids
      (map (fun ft => labelled ts (fst ft) (snd ft)) (shown_factors latent observed ts))
      (factor_variables df lv (quasi_score md n df ids lv) latent observed ts) c.
Proof.
  intros Hset Hsel Hper Hnd Hne Hlo Heq Hcols.
  assert (Hset' := Hset). destruct Hset' as (Hwf & Hp & Hn & Hclash & Hdf & Hu & Hids & Hlv).
  unfold get_quasi_scores_corr. rewrite Hp. cbn [rbind].
  rewrite (process_periods_ok md p n Hp Hn periods ts Hper).
  rewrite (pre_process_periods df ids lv Hdf Hu Hids Hlv). cbn [rbind].
  rewrite (process_factors_ok md p Hp _ _ _ Hsel). cbn [rbind fst snd].
  set (items := fun t => score_items df lv latent observed t (quasi_score md n df ids lv)).
  rewrite (stack_periods_ok ids _ ts items Hne).
  - cbn [rbind]. eexists. split; [reflexivity|].
    assert (H := corr_table_of ids (stacked ts items)).
    assert (E1 : map fst (stacked ts items) =
      map (fun ft => labelled ts (fst ft) (snd ft)) (shown_factors latent observed ts)).
    { unfold stacked, shown_factors, items, score_items. rewrite !map_flat_map. apply flat_map_ext.
      intros t. rewrite !map_app, !map_map. reflexivity. }
    assert (E2 : map snd (stacked ts items) =
      factor_variables df lv (quasi_score md n df ids lv) latent observed ts).
    { unfold stacked, factor_variables, items, score_items. rewrite !map_flat_map. apply flat_map_ext.
      intros t. rewrite !map_app, !map_map. reflexivity. }
    rewrite <- E1, <- E2. exact H.
  - intros t Ht. apply (quasi_single_ok md p n df ids lv Hset latent observed ts t Hnd Ht).
    + intros f Hf. apply (Hcols f t). unfold shown_measurements. apply in_flat_map. exists t.
      split; [exact Ht|]. apply in_map_iff. exists f. split; [reflexivity|]. apply in_app_iff. now right.
    + intros f v Hf Hv. apply (Hcols v t). unfold shown_measurements. apply in_flat_map. exists t.
      split; [exact Ht|]. apply in_map_iff. exists v. split; [reflexivity|]. apply in_app_iff. left.
      apply in_flat_map. exists f. split; [exact Hf|]. now apply (In_measurements_of md p n).
    + now apply Heq.
    + exact Hlo.
Qed.
Print Assumptions C74_quasi_scores.

(** ** C76 *)

(** The parameters of the model are all there, once each. *)
Definition has_values (md : model_dict) (params : list (label * R)) (value_of : label -> R) : Prop :=
  NoDup (map fst params) /\ (forall lb, In lb (map fst params) <-> is_param md lb) /\
  (forall lb x, In (lb, x) params -> value_of lb = x).

(** Scores are the averages of (measurement - intercept) / loading over the
    measurements that load on one factor only. *)
Theorem C76_scores md p n df ids lv factors latent observed periods ts params value_of :
  heatmap_setting md p n df ids lv -> selects md factors latent observed ->
  chosen_periods n periods ts -> NoDup ts -> ts <> [] -> latent ++ observed <> [] ->
  has_values md params value_of ->
  (forall t, In t ts -> exists f v, measures md t f v) ->
  (forall v t, In (v, t) (shown_measurements md n latent observed ts) -> In v (fr_columns df)) ->
  (forall t f v, In t ts -> In f latent -> measures md t f v ->
     single_loading md value_of t v = true -> value_of (CLoadings, t, v, f) <> 0%R) ->
  exists c, get_scores_corr df params md factors periods = Ok c /\
    correlates ids
      (map (fun ft => labelled ts (fst ft) (snd ft)) (shown_factors latent observed ts))
      (factor_variables df lv (score md n df lv value_of) latent observed ts) c.
Proof.
  intros Hset Hsel Hper Hnd Hne Hlo (Hpnd & Hpars & Hval) Hmeas Hcols Hnz.
  assert (Hset' := Hset). destruct Hset' as (Hwf & Hp & Hn & Hclash & Hdf & Hu & Hids & Hlv).
  unfold get_scores_corr. rewrite Hp. cbn [rbind].
  rewrite (process_periods_ok md p n Hp Hn periods ts Hper).
  rewrite (pre_process_periods df ids lv Hdf Hu Hids Hlv). cbn [rbind].
  rewrite (process_factors_ok md p Hp _ _ _ Hsel). cbn [rbind fst snd].
  assert (Hhas : forall c, (exists lb, is_param md lb /\ lb_cat lb = c) ->
            existsb (fun row : label * R => cat_eqb (lb_cat (fst row)) c) params = true).
  { intros c (lb & Hlb & Hc). apply Hpars in Hlb. apply in_map_iff in Hlb as ([lb' x] & E & Hin).
    simpl in E. subst lb'. apply existsb_exists. exists (lb, x). split; [exact Hin|].
    now apply cat_eqb_spec. }
  destruct ts as [|t0 ts0] eqn:Ets; [congruence|]. rewrite <- Ets in *.
  destruct (Hmeas t0) as (f0 & v0 & Hm0); [rewrite Ets; now left|].
  rewrite (Hhas CControls), (Hhas CLoadings).
  2:{ exists (CLoadings, t0, v0, f0). split; [|reflexivity]. apply par_loading; [now left|].
      exact (measures_latent md t0 f0 v0 Hm0). }
  2:{ exists (CControls, t0, v0, "constant"). split; [|reflexivity]. apply par_control; [|now left].
      exists f0. now left. }
  cbn [andb rbind].
  set (items := fun t => score_items df lv latent observed t (score md n df lv value_of)).
  rewrite (stack_periods_ok ids _ ts items Hne).
  - cbn [rbind]. eexists. split; [reflexivity|].
    assert (H := corr_table_of ids (stacked ts items)).
    assert (E1 : map fst (stacked ts items) =
      map (fun ft => labelled ts (fst ft) (snd ft)) (shown_factors latent observed ts)).
    { unfold stacked, shown_factors, items, score_items. rewrite !map_flat_map. apply flat_map_ext.
      intros t. rewrite !map_app, !map_map. reflexivity. }
    assert (E2 : map snd (stacked ts items) =
      factor_variables df lv (score md n df lv value_of) latent observed ts).
    { unfold stacked, factor_variables, items, score_items. rewrite !map_flat_map. apply flat_map_ext.
      intros t. rewrite !map_app, !map_map. reflexivity. }
    rewrite <- E1, <- E2. exact H.
  - intros t Ht. apply (scores_single_ok md p n df ids lv Hset latent observed ts t Hnd Ht); auto.
    + intros f Hf. apply (Hcols f t). unfold shown_measurements. apply in_flat_map. exists t.
      split; [exact Ht|]. apply in_map_iff. exists f. split; [reflexivity|]. apply in_app_iff. now right.
    + intros f v Hf Hv. apply (Hcols v t). unfold shown_measurements. apply in_flat_map. exists t.
      split; [exact Ht|]. apply in_map_iff. exists v. split; [reflexivity|]. apply in_app_iff. left.
      apply in_flat_map. exists f. split; [exact Hf|]. now apply (In_measurements_of md p n).
    + destruct (Hmeas t Ht) as (f & v & Hm). exists v.
      rewrite <- (equations_keys md p n Hwf Hp Hn). apply (In_p_update_keys md p Hwf Hp). exists f. now left.
    + intros f Hf. exact (selects_latent md _ _ _ f Hsel Hf).
Qed.
Print Assumptions C76_scores.

Lemma average_known_same xs y : In (Some y) xs -> (forall x, In (Some x) xs -> x = y) ->
  average_known xs = Some y.
Proof.
  intros Hin Hall. unfold average_known.
  set (l := flat_map _ xs).
  assert (Hl : forall x, In x l <-> In (Some x) xs).
  { intros x. unfold l. rewrite in_flat_map. split.
    - intros ([z|] & Hz & Hx); [|destruct Hx]. now destruct Hx as [->|[]].
    - intros H. exists (Some x). split; [exact H|now left]. }
  assert (Ea : l <> [] -> average l = y).
  { intros H. apply average_constant; [exact H|]. intros x Hx. now apply Hall, Hl. }
  destruct l as [|x l]; [|now rewrite Ea].
  apply Hl in Hin. destruct Hin.
Qed.

Lemma Forall2_nth_error {A B} (P : A -> B -> Prop) l l' i x :
  Forall2 P l l' -> nth_error l i = Some x -> exists y, nth_error l' i = Some y /\ P x y.
Proof.
  intros H. revert i. induction H as [|a b l l' Hab _ IH]; intros i Hi; [destruct i; discriminate|].
  destruct i as [|i]; simpl in *; [|now apply IH]. injection Hi as <-. now exists b.
Qed.

(** Without measurement error, scores are the latent factors themselves. *)
Theorem C76_scores_exact md p n df ids lv factors latent observed periods ts params value_of
    (truth : string -> nat -> Z -> R) :
  heatmap_setting md p n df ids lv -> selects md factors latent observed ->
  chosen_periods n periods ts -> NoDup ts -> ts <> [] -> latent ++ observed <> [] ->
  has_values md params value_of ->
  (forall t, In t ts -> exists f v, measures md t f v) ->
  (forall v t, In (v, t) (shown_measurements md n latent observed ts) -> In v (fr_columns df)) ->
  (forall t f v, In t ts -> In f latent -> measures md t f v ->
     single_loading md value_of t v = true -> value_of (CLoadings, t, v, f) <> 0%R) ->
  (forall t f v id x, In t ts -> In f latent -> measures md t f v -> In id ids ->
     single_loading md value_of t v = true -> data_variable df lv v t id = Some x ->
     x = (value_of (CControls, t, v, "constant") + value_of (CLoadings, t, v, f) * truth f t id)%R) ->
  (forall t f id, In t ts -> In f latent -> In id ids ->
     exists v, measures md t f v /\ single_loading md value_of t v = true /\
               data_variable df lv v t id <> None) ->
  exists c, get_scores_corr df params md factors periods = Ok c /\
    correlates ids
      (map (fun ft => labelled ts (fst ft) (snd ft)) (shown_factors latent observed ts))
      (factor_variables df lv (fun f t id => Some (truth f t id)) latent observed ts) c.
Proof.
  intros Hset Hsel Hper Hnd Hne Hlo Hpar Hmeas Hcols Hnz Htrue Hobs.
  destruct (C76_scores md p n df ids lv factors latent observed periods ts params value_of
              Hset Hsel Hper Hnd Hne Hlo Hpar Hmeas Hcols Hnz) as (c & Hc & H).
  exists c. split; [exact Hc|].
  assert (Hset' := Hset). destruct Hset' as (Hwf & Hp & Hn & Hclash & Hdf & Hu & Hids & Hlv).
  assert (Hsc : forall f t id, In f latent -> In t ts -> In id ids ->
            score md n df lv value_of f t id = Some (truth f t id)).
  { intros f t id Hf Ht Hid. unfold score. apply average_known_same.
    - destruct (Hobs t f id Ht Hf Hid) as (v & Hv & Hs & Hx).
      destruct (data_variable df lv v t id) as [x|] eqn:Ex; [|congruence].
      apply in_map_iff. exists v. rewrite Ex. simpl. split.
      + f_equal. rewrite (Htrue t f v id x Ht Hf Hv Hid Hs Ex). field. exact (Hnz t f v Ht Hf Hv Hs).
      + apply filter_In. split; [|exact Hs]. now apply (In_measurements_of md p n).
    - intros y Hy. apply in_map_iff in Hy as (v & Ey & Hv). apply filter_In in Hv as [Hv Hs].
      apply (In_measurements_of md p n Hwf Hp Hn) in Hv.
      destruct (data_variable df lv v t id) as [x|] eqn:Ex; [|discriminate]. injection Ey as <-.
      rewrite (Htrue t f v id x Ht Hf Hv Hid Hs Ex). field. exact (Hnz t f v Ht Hf Hv Hs). }
  destruct H as (H1 & H2 & H3 & H4 & H5 & H6).
  assert (El : length (factor_variables df lv (fun f t id => Some (truth f t id)) latent observed ts)
             = length (factor_variables df lv (score md n df lv value_of) latent observed ts)).
  { unfold factor_variables. clear. induction ts as [|t ts IH]; simpl; [reflexivity|].
    rewrite !app_length, IH, !map_length. reflexivity. }
  assert (Hpt : forall i f, nth_error (factor_variables df lv (fun f t id => Some (truth f t id)) latent observed ts) i
             = Some f -> exists g, nth_error (factor_variables df lv (score md n df lv value_of) latent observed ts) i
             = Some g /\ forall id, In id ids -> g id = f id).
  { assert (Hf2 : Forall2 (fun f g : variable => forall id, In id ids -> g id = f id)
        (factor_variables df lv (fun f t id => Some (truth f t id)) latent observed ts)
        (factor_variables df lv (score md n df lv value_of) latent observed ts)).
    { unfold factor_variables. clear - Hsc.
      assert (Hs : forall t, In t ts -> forall f, In f latent -> forall id, In id ids ->
                score md n df lv value_of f t id = Some (truth f t id)) by auto.
      clear Hsc. induction ts as [|t ts IH]; [constructor|]. cbn [flat_map].
      apply Forall2_app; [apply Forall2_app|].
      - assert (Hs' : forall f, In f latent -> forall id, In id ids ->
                score md n df lv value_of f t id = Some (truth f t id)) by (apply Hs; now left).
        clear - Hs'. induction latent as [|f l IH]; constructor.
        + intros id Hid. apply Hs'; [now left|exact Hid].
        + apply IH. intros g Hg. apply Hs'. now right.
      - clear IH Hs. induction observed as [|f l IHo]; constructor; [reflexivity|exact IHo].
      - apply IH. intros s Hs'. apply Hs. now right. }
    intros i f Hi. exact (Forall2_nth_error _ _ _ i f Hf2 Hi). }
  repeat split; try rewrite El; auto.
  intros i j f g Hi Hj. destruct (Hpt i f Hi) as (f' & Hi' & Ef). destruct (Hpt j g Hj) as (g' & Hj' & Eg).
  destruct (H6 i j f' g' Hi' Hj') as (r & Hr & Hcor). exists r. split; [exact Hr|].
  replace (both_known ids f g) with (both_known ids f' g'); [exact Hcor|].
  unfold both_known. apply flat_map_ext_in. intros id Hid. now rewrite (Ef id Hid), (Eg id Hid).
Qed.
Print Assumptions C76_scores_exact.

(** ** C75 *)

(** The units in which a variable is measured do not matter, not even for errors. *)
Theorem C75_units md df factors periods v a b : (0 < a)%R ->
  get_measurements_corr (in_other_units v a b df) md factors periods =
    get_measurements_corr df md factors periods /\
  get_quasi_scores_corr (in_other_units v a b df) md factors periods =
    get_quasi_scores_corr df md factors periods.
Proof.
  intros Ha. split; symmetry; apply res_rel_eq.
  - unfold get_measurements_corr. destruct (process_model md) as [p|e]; [|reflexivity]. cbn [rbind].
    apply (rbind_rel _ _ _ _ _ _ (pre_process_units v a b df _)). intros rows rows' Hrows.
    destruct (process_factors (p_labels p) factors) as [fs|e]; [|reflexivity]. cbn [rbind].
    apply (rbind_rel (Forall2 named_rel)).
    + apply stack_rel. intros t _.
      exact (measurement_units v a b Ha (fr_columns df) rows rows' (p_update p) Hrows (fst fs) (snd fs) t).
    + intros d d' Hd. symmetry. exact (corr_rel d d' Hd).
  - unfold get_quasi_scores_corr. destruct (process_model md) as [p|e]; [|reflexivity]. cbn [rbind].
    apply (rbind_rel _ _ _ _ _ _ (pre_process_units v a b df _)). intros rows rows' Hrows.
    destruct (process_factors (p_labels p) factors) as [fs|e]; [|reflexivity]. cbn [rbind].
    apply (rbind_rel (Forall2 named_rel)).
    + apply stack_rel. intros t _.
      exact (quasi_units v a b Ha (fr_columns df) rows rows' (p_update p) Hrows (fst fs) (snd fs) t).
    + intros d d' Hd. symmetry. exact (corr_rel d d' Hd).
Qed.
Print Assumptions C75_units.

(** For scores, the parameters have to be expressed in the same units. *)
Theorem C75_units_scores md df params factors periods v a b : (0 < a)%R ->
  get_scores_corr (in_other_units v a b df) (equations_in_other_units v a b params) md factors periods =
  get_scores_corr df params md factors periods.
Proof.
  intros Ha. symmetry; apply res_rel_eq.
  unfold get_scores_corr. destruct (process_model md) as [p|e]; [|reflexivity]. cbn [rbind].
  apply (rbind_rel _ _ _ _ _ _ (pre_process_units v a b df _)). intros rows rows' Hrows.
  destruct (process_factors (p_labels p) factors) as [fs|e]; [|reflexivity]. cbn [rbind].
  assert (Hpar := params_units v a b params).
  rewrite (existsb_par_rel v a b (fun lb => cat_eqb (lb_cat lb) CControls) _ _ Hpar).
  rewrite (existsb_par_rel v a b (fun lb => cat_eqb (lb_cat lb) CLoadings) _ _ Hpar).
  destruct (_ && _); [|reflexivity]. cbn [rbind].
  apply (rbind_rel (Forall2 named_rel)).
  - apply stack_rel. intros t _.
    apply (scores_units v a b Ha (fr_columns df) rows rows' (p_update p) Hrows (fst fs) (snd fs)).
    exact (filter_par_rel v a b (fun lb => cat_eqb (lb_cat lb) CControls || cat_eqb (lb_cat lb) CLoadings)
             _ _ Hpar).
  - intros d d' Hd. symmetry. exact (corr_rel d d' Hd).
Qed.
Print Assumptions C75_units_scores.

Lemma pre_process_row_order {V} (df df' : frame V) ts : wf_frame df ->
  Permutation (fr_rows df) (fr_rows df') ->
  fr_id_level df' = fr_id_level df -> fr_period_level df' = fr_period_level df ->
  pre_process_data df' ts = pre_process_data df ts.
Proof.
  intros Hdf Hperm Hil Hpl.
  assert (Hdf' : wf_frame df').
  { intros r Hr. rewrite Hil, Hpl. apply Hdf. eapply Permutation_in; [|exact Hr].
    now apply Permutation_sym. }
  set (ids := zsort_unique (map dr_id (fr_rows df))).
  set (lv := zsort_unique (fr_period_level df)).
  assert (Hids : ids_of df ids).
  { split; [apply zsort_unique_sorted|]. intros z. unfold ids. rewrite zsort_unique_In, in_map_iff.
    split; intros (r & H1 & H2); eauto. }
  assert (Hids' : ids_of df' ids).
  { split; [apply zsort_unique_sorted|]. intros z. rewrite (proj2 Hids z).
    split; intros (r & H1 & H2); exists r; (split; [|exact H2]).
    - eapply Permutation_in; eauto.
    - eapply Permutation_in; [apply Permutation_sym, Hperm|exact H1]. }
  assert (Hlv : levels_of df lv) by apply ascending_zsort.
  assert (Hlv' : levels_of df' lv).
  { unfold levels_of. rewrite Hpl. apply ascending_zsort. }
  destruct (has_dup_key (encode df)) eqn:Ed.
  - assert (Hu : ~ unique_index df).
    { intros Hu. apply (encode_dup df lv Hdf Hlv) in Hu. congruence. }
    rewrite (pre_process_dup df lv Hdf Hlv _ Hu). apply (pre_process_dup df' lv Hdf' Hlv').
    intros Hu'. apply Hu. unfold unique_index in *.
    eapply Permutation_NoDup; [apply Permutation_map, Permutation_sym, Hperm|exact Hu'].
  - assert (Hu : unique_index df) by now apply (encode_dup df lv Hdf Hlv).
    assert (Hu' : unique_index df').
    { unfold unique_index in *. eapply Permutation_NoDup; [apply Permutation_map, Hperm|exact Hu]. }
    unfold pre_process_data, reindex.
    rewrite (proj2 (encode_dup df lv Hdf Hlv) Hu), (proj2 (encode_dup df' lv Hdf' Hlv') Hu').
    rewrite (codes_eq df ids lv Hdf Hids Hlv), (codes_eq df' ids lv Hdf' Hids' Hlv').
    assert (Ec : codes df' ids = codes df ids) by (unfold codes; now rewrite Hil).
    f_equal. rewrite Ec. unfold codes. rewrite !flat_map_map. apply flat_map_ext_in. intros z Hz.
    apply map_ext. intros t.
    assert (F := find_encode df ids lv Hdf Hids Hlv z t Hu Hz).
    assert (F' := find_encode df' ids lv Hdf' Hids' Hlv' z t Hu' Hz).
    rewrite Hil in F'. rewrite F, F'.
    now rewrite (raw_cells_perm df df' lv Hu Hperm z t).
Qed.

(** The order of the rows of the data set has no influence. *)
Theorem C75_row_order md df df' params factors periods : wf_frame df ->
  Permutation (fr_rows df) (fr_rows df') -> fr_columns df' = fr_columns df ->
  fr_id_level df' = fr_id_level df -> fr_period_level df' = fr_period_level df ->
  get_measurements_corr df' md factors periods = get_measurements_corr df md factors periods /\
  get_quasi_scores_corr df' md factors periods = get_quasi_scores_corr df md factors periods /\
  get_scores_corr df' params md factors periods = get_scores_corr df params md factors periods.
Proof.
  intros Hdf Hperm Hc Hi Hp.
  unfold get_measurements_corr, get_quasi_scores_corr, get_scores_corr. rewrite Hc.
  repeat split; (destruct (process_model md) as [p|e]; [|reflexivity]); cbn [rbind];
    now rewrite (pre_process_row_order df df' _ Hdf Hperm Hi Hp).
Qed.
Print Assumptions C75_row_order.

(** ** C77 *)

Lemma correlation_unique ps r r' : is_correlation ps r -> is_correlation ps r' -> r = r'.
Proof.
  destruct r as [r|], r' as [r'|]; simpl; intros H H'; [|tauto|tauto|reflexivity].
  destruct H as (_ & _ & ->), H' as (_ & _ & ->). reflexivity.
Qed.

(** A variable and its counterpart in other units, or two variables that do not vary. *)
Definition same_variation (ids : list Z) (f g : variable) : Prop :=
  (exists a b, (0 < a)%R /\ forall id, In id ids -> g id = option_map (fun x => a * x + b)%R (f id)) \/
  (constant (known ids f) /\ constant (known ids g)).

Lemma both_known_l ids f g x : In x (map fst (both_known ids f g)) -> In x (known ids f).
Proof.
  unfold both_known, known. intros H. apply in_map_iff in H as ([y z] & <- & H).
  apply in_flat_map in H as (id & Hid & H). apply in_flat_map. exists id. split; [exact Hid|].
  destruct (f id), (g id); simpl in *; try tauto. destruct H as [[= <- <-]|[]]. now left.
Qed.

Lemma both_known_r ids f g x : In x (map snd (both_known ids f g)) -> In x (known ids g).
Proof.
  unfold both_known, known. intros H. apply in_map_iff in H as ([y z] & <- & H).
  apply in_flat_map in H as (id & Hid & H). apply in_flat_map. exists id. split; [exact Hid|].
  destruct (f id), (g id); simpl in *; try tauto. destruct H as [[= <- <-]|[]]. now left.
Qed.

Lemma constant_corr_none ids f g r : constant (known ids f) \/ constant (known ids g) ->
  is_correlation (both_known ids f g) r -> r = None.
Proof.
  intros [[c Hc]|[c Hc]] H; (destruct r as [r|]; [|reflexivity]); exfalso; destruct H as (H1 & H2 & _).
  - apply H1. exists c. intros x Hx. now apply Hc, (both_known_l ids f g).
  - apply H2. exists c. intros x Hx. now apply Hc, (both_known_r ids f g).
Qed.

Lemma same_variation_corr ids f f' g g' r r' :
  same_variation ids f f' -> same_variation ids g g' ->
  is_correlation (both_known ids f g) r -> is_correlation (both_known ids f' g') r' -> r = r'.
Proof.
  intros [(a & b & Ha & Hf)|[Hc Hc']] [(c & d & Hc0 & Hg)|[Hd Hd']] H H';
    try (rewrite (constant_corr_none ids f g r), (constant_corr_none ids f' g' r'); auto; fail).
  rewrite <- complete_pairs_map in H, H'.
  assert (E : complete_pairs (map f' ids) (map g' ids) =
              complete_pairs (affine a b (map f ids)) (affine c d (map g ids))).
  { unfold affine. rewrite !map_map. f_equal; now apply map_ext_in. }
  rewrite (correlation_unique _ _ _ H (pearson_correct _ _)).
  rewrite (correlation_unique _ _ _ H' (pearson_correct _ _)).
  rewrite <- (pearson_affine a b c d (map f ids) (map g ids)) by nra.
  apply (correlation_unique (complete_pairs (map f' ids) (map g' ids))); [|apply pearson_correct].
  rewrite E. apply pearson_correct.
Qed.

Lemma same_variation_refl ids f : same_variation ids f f.
Proof.
  left. exists 1%R, 0%R. split; [lra|]. intros id _. destruct (f id) as [x|]; [|reflexivity].
  simpl. f_equal. ring.
Qed.

Lemma list_eq_nth {A} (l l' : list A) : length l = length l' ->
  (forall i x y, nth_error l i = Some x -> nth_error l' i = Some y -> x = y) -> l = l'.
Proof.
  revert l'. induction l as [|x l IH]; intros [|y l'] Hl H; try discriminate; [reflexivity|].
  f_equal; [now apply (H 0)|]. apply IH; [now injection Hl|]. intros i. exact (H (S i)).
Qed.

Lemma correlates_same ids names vars vars' c c' :
  correlates ids names vars c -> correlates ids names vars' c' ->
  Forall2 (same_variation ids) vars vars' -> c = c'.
Proof.
  intros (A1 & A2 & A3 & A4 & A5 & A6) (B1 & B2 & B3 & B4 & B5 & B6) H.
  destruct c as [ix co ce], c' as [ix' co' ce']. simpl in *. subst. f_equal.
  assert (El : length vars = length vars') by congruence.
  apply list_eq_nth; [congruence|]. intros i row row' Hi Hi'.
  assert (Hr : length row = length vars) by (apply A5; now apply nth_error_In in Hi).
  assert (Hr' : length row' = length vars') by (apply B5; now apply nth_error_In in Hi').
  apply list_eq_nth; [congruence|]. intros j x x' Hj Hj'.
  destruct (nth_error vars i) as [f|] eqn:Ef.
  2:{ apply nth_error_None in Ef. assert (i < length ce) by (apply nth_error_Some; congruence). lia. }
  destruct (nth_error vars j) as [g|] eqn:Eg.
  2:{ apply nth_error_None in Eg. assert (j < length row) by (apply nth_error_Some; congruence). lia. }
  destruct (Forall2_nth_error _ _ _ i f H Ef) as (f' & Ef' & Hf).
  destruct (Forall2_nth_error _ _ _ j g H Eg) as (g' & Eg' & Hg).
  destruct (A6 i j f g Ef Eg) as (r & (q & Q1 & Q2) & Hcr).
  destruct (B6 i j f' g' Ef' Eg') as (r' & (q' & Q1' & Q2') & Hcr').
  rewrite Hi in Q1. injection Q1 as <-. rewrite Hi' in Q1'. injection Q1' as <-.
  rewrite Hj in Q2. injection Q2 as ->. rewrite Hj' in Q2'. injection Q2' as ->.
  exact (same_variation_corr ids f f' g g' _ _ Hf Hg Hcr Hcr').
Qed.

Lemma sd_zero_constant xs : standard_deviation xs = 0%R -> constant xs.
Proof.
  destruct xs as [|x [|y xs]]; intros H.
  - exists 0%R. intros ? [].
  - exists x. intros z [->|[]]. reflexivity.
  - apply dev2_zero. unfold standard_deviation in H. fold (dev2 (x :: y :: xs)) in H.
    set (l := x :: y :: xs) in *.
    assert (Hl : (0 < INR (length l) - 1)%R).
    { unfold l. cbn [length]. rewrite !S_INR. assert (G := pos_INR (length xs)). lra. }
    assert (Hd := dev2_nonneg l).
    apply sqrt_eq_0 in H.
    + apply Rmult_integral in H as [H|H]; [exact H|]. exfalso.
      assert (G := Rinv_0_lt_compat _ Hl). lra.
    + apply Rmult_le_pos; [exact Hd|]. left. now apply Rinv_0_lt_compat.
Qed.

Lemma average_known_one x : average_known [x] = x.
Proof.
  unfold average_known. destruct x as [x|]; [|reflexivity]. simpl. f_equal. unfold average. simpl. field.
Qed.

Lemma single_quasi_score md n df ids lv value_of t f v : In f (latent_of md) ->
  measurements_of md n t f = [v] -> single_loading md value_of t v = true ->
  (0 < value_of (CLoadings, t, v, f))%R ->
  same_variation ids (quasi_score md n df ids lv f t) (score md n df lv value_of f t).
Proof.
  intros Hf Hm Hs Hl. unfold quasi_score, score. rewrite Hm. cbn [filter map]. rewrite Hs. cbn [map].
  set (x := data_variable df lv v t). set (l := value_of (CLoadings, t, v, f)) in *.
  set (k := value_of (CControls, t, v, "constant")).
  set (s := standard_deviation (known ids x)). set (m := average (known ids x)).
  destruct (Req_EM_T s 0) as [E|E].
  - right. split.
    + exists 0%R. intros y Hy. unfold known in Hy. apply in_flat_map in Hy as (id & _ & Hy).
      rewrite average_known_one in Hy. unfold standardized in Hy. fold s in Hy.
      destruct (x id); [|destruct Hy]. destruct (Req_EM_T s 0); [destruct Hy|congruence].
    + destruct (sd_zero_constant (known ids x) E) as [c Hc]. exists ((c - k) / l)%R.
      intros y Hy. unfold known in Hy. apply in_flat_map in Hy as (id & Hid & Hy).
      rewrite average_known_one in Hy. destruct (x id) as [z|] eqn:Ez; [|destruct Hy].
      simpl in Hy. destruct Hy as [<-|[]]. rewrite (Hc z); [reflexivity|].
      unfold known. apply in_flat_map. exists id. split; [exact Hid|]. rewrite Ez. now left.
  - left. assert (Hpos : (0 < s)%R).
    { assert (0 <= s)%R by apply sqrt_pos. lra. }
    exists (s / l)%R, ((m - k) / l)%R. split; [now apply Rdiv_lt_0_compat|].
    intros id _. rewrite !average_known_one. unfold standardized. fold s m.
    destruct (x id) as [z|]; [|reflexivity]. destruct (Req_EM_T s 0); [congruence|]. simpl. f_equal.
    field. lra.
Qed.

(** The documentation of get_quasi_scores_corr says that they coincide with factor
    scores for linear models. With one measurement per factor and positive loadings,
    their correlations do. *)
Theorem C77_quasi_scores_partial md p n df ids lv factors latent observed periods ts params value_of :
  heatmap_setting md p n df ids lv -> selects md factors latent observed ->
  chosen_periods n periods ts -> NoDup ts -> ts <> [] -> latent ++ observed <> [] ->
  has_values md params value_of ->
  (forall t, In t ts -> exists f v, measures md t f v) ->
  (forall v t, In (v, t) (shown_measurements md n latent observed ts) -> In v (fr_columns df)) ->
  (forall t f, In t ts -> In f latent -> exists v, measurements_of md n t f = [v] /\
     single_loading md value_of t v = true /\ (0 < value_of (CLoadings, t, v, f))%R) ->
  exists c, get_quasi_scores_corr df md factors periods = Ok c /\
            get_scores_corr df params md factors periods = Ok c.
Proof.
  intros Hset Hsel Hper Hnd Hne Hlo Hpar Hmeas Hcols Hone.
  assert (Hset' := Hset). destruct Hset' as (Hwf & Hp & Hn & _).
  destruct (C74_quasi_scores md p n df ids lv factors latent observed periods ts
              Hset Hsel Hper Hnd Hne Hlo) as (c & Hc & H).
  { intros t Ht. destruct (Hmeas t Ht) as (f & v & Hm). exists v.
    rewrite <- (equations_keys md p n Hwf Hp Hn). apply (In_p_update_keys md p Hwf Hp). exists f. now left. }
  { exact Hcols. }
  destruct (C76_scores md p n df ids lv factors latent observed periods ts params value_of
              Hset Hsel Hper Hnd Hne Hlo Hpar Hmeas Hcols) as (c' & Hc' & H').
  { intros t f v Ht Hf Hv _. destruct (Hone t f Ht Hf) as (w & Hw & _ & Hpos).
    apply (In_measurements_of md p n Hwf Hp Hn) in Hv. rewrite Hw in Hv. destruct Hv as [<-|[]].
    intros E. rewrite E in Hpos. lra. }
  exists c. split; [exact Hc|]. rewrite Hc'. f_equal. symmetry.
  apply (correlates_same _ _ _ _ _ _ H H').
  unfold factor_variables.
  assert (Hl : forall f, In f latent -> In f (latent_of md))
    by (intros f Hf; exact (selects_latent md _ _ _ f Hsel Hf)).
  assert (G : forall t, In t ts -> Forall2 (same_variation ids)
    (map (fun f => quasi_score md n df ids lv f t) latent ++ map (fun f => data_variable df lv f t) observed)
    (map (fun f => score md n df lv value_of f t) latent ++ map (fun f => data_variable df lv f t) observed)).
  { intros t Ht. apply Forall2_app.
    - assert (Ho : forall f, In f latent -> In f (latent_of md) /\ exists v, measurements_of md n t f = [v] /\
        single_loading md value_of t v = true /\ (0 < value_of (CLoadings, t, v, f))%R) by auto.
      clear -Ho. induction latent as [|f l IH]; constructor.
      + destruct (Ho f) as (Hf & v & H1 & H2 & H3); [now left|]. now apply (single_quasi_score _ _ _ _ _ _ _ _ v).
      + apply IH. intros g Hg. apply Ho. now right.
    - clear. induction observed; constructor; auto using same_variation_refl. }
  clear -G. induction ts as [|t ts IH]; simpl; [constructor|]. apply Forall2_app.
  - apply G. now left.
  - apply IH. intros s Hs. apply G. now right.
Qed.
Print Assumptions C77_quasi_scores_partial.

(** ** Examples *)

(** Two latent factors, one with two measurements in the first period, and an observed
    factor; three individuals. *)
Definition hm_model : model_dict :=
  mk_md
    [("f", mk_factor [["y1"; "y2"]; ["y1"]] (TStr "linear")
             (Some (mk_norm (Some [[("y1", 1%Q)]; [("y1", 1%Q)]]) None)));
     ("g", mk_factor [["z"]; ["z"]] (TStr "linear")
             (Some (mk_norm (Some [[("z", (-1)%Q)]; [("z", (-1)%Q)]]) None)))]
    (Some ["o"]) None None None
    (Some (mk_opts (Some 1) None None None None None None None)).
Definition hm_p : processed := get_ok (process_model hm_model) small_p.
Lemma hm_accepted : process_model hm_model = Ok hm_p.
Proof. vm_compute. reflexivity. Qed.

Definition rcells (l : list (string * R)) (x : string) : option R := dget l x.

Definition hm_df : frame R :=
  mk_frame ["o"; "y1"; "y2"; "z"] [1; 2; 3]%Z [10; 20]%Z
    [mk_drow 2 10 (rcells [("y1", 1); ("y2", 4); ("z", 1); ("o", 0)]%R);
     mk_drow 1 10 (rcells [("y1", 0); ("y2", 3); ("z", 0); ("o", 1)]%R);
     mk_drow 3 10 (rcells [("y1", 2); ("y2", 5); ("z", 2); ("o", 1)]%R);
     mk_drow 1 20 (rcells [("y1", 4); ("z", 7); ("o", 1)]%R);
     mk_drow 3 20 (rcells [("y1", 9); ("y2", 4); ("z", 3); ("o", 2)]%R)].

Lemma hm_periods : has_n_periods hm_model 2.
Proof.
  split; [eexists _, _; split; [left; reflexivity|reflexivity]|].
  intros f fs [[= <- <-]|[[= <- <-]|[]]]; simpl; lia.
Qed.

Lemma hm_wf : wf_dicts hm_model.
Proof. split; [repeat constructor; simpl; intuition discriminate|]. intros a o H. discriminate. Qed.

Lemma hm_setting : heatmap_setting hm_model hm_p 2 hm_df [1; 2; 3]%Z [10; 20]%Z.
Proof.
  split; [exact hm_wf|]. split; [exact hm_accepted|]. split; [exact hm_periods|].
  split; [|split; [|split; [|split]]].
  - intros k f g v _ (_ & o & (a & outs & H & _) & _). discriminate.
  - intros r Hr. repeat (destruct Hr as [<-|Hr]; [simpl; tauto|]). destruct Hr.
  - repeat constructor; simpl; intuition discriminate.
  - split; [repeat constructor|]. intros z. split.
    + intros [<-|[<-|[<-|[]]]].
      * eexists. split; [do 1 right; left; reflexivity|reflexivity].
      * eexists. split; [left; reflexivity|reflexivity].
      * eexists. split; [do 2 right; left; reflexivity|reflexivity].
    + intros (r & Hr & <-). repeat (destruct Hr as [<-|Hr]; [simpl; tauto|]). destruct Hr.
  - split; [repeat constructor|]. intros z. reflexivity.
Qed.

Lemma hm_equations t : In t [0; 1] -> exists f v, measures hm_model t f v.
Proof.
  intros [<-|[<-|[]]]; exists "g", "z"; apply (measured_by_spec hm_model hm_wf); reflexivity.
Qed.

Definition hm_value (lb : label) : R :=
  match lb with
  | (CLoadings, _, v, _) => if String.eqb v "z" then -1 else 1
  | (CControls, 0, v, _) => if String.eqb v "y2" then 3 else 0
  | _ => 0
  end%R.
Definition hm_params : list (label * R) := map (fun lb => (lb, hm_value lb)) (params_index_of hm_p).

Lemma hm_good_names : good_names hm_model.
Proof.
  unfold good_names, without_char. repeat split.
  - repeat constructor; simpl; intuition discriminate.
  - simpl. intros f H. intuition subst; simpl in *; intuition discriminate.
  - simpl in H. intuition subst; simpl in *; intuition discriminate.
  - simpl in *. intuition subst; intuition discriminate.
  - intros g. simpl in H. intuition subst; discriminate.
  - repeat constructor; simpl; intuition.
  - simpl. intuition discriminate.
  - intros f fs n names [[= <- <-]|[[= <- <-]|[]]] E; simpl in E; discriminate.
Qed.

Lemma hm_values : has_values hm_model hm_params hm_value.
Proof.
  unfold hm_params, has_values. rewrite map_map. cbn [fst]. rewrite map_id. split; [|split].
  - exact (NoDup_params_index hm_model hm_p hm_wf hm_good_names hm_accepted).
  - intros lb. exact (In_params_index hm_model hm_p lb hm_wf hm_accepted).
  - intros lb x H. apply in_map_iff in H as (l & [= -> <-] & _). reflexivity.
Qed.

Lemma hm_columns ts latent observed v t :
  In (v, t) (shown_measurements hm_model 2 latent observed ts) -> In t [0; 1] ->
  (forall f, In f latent -> f = "f" \/ f = "g") -> (forall f, In f observed -> f = "o") ->
  In v (fr_columns hm_df).
Proof.
  intros H Ht Hl Ho. unfold shown_measurements in H. apply in_flat_map in H as (s & _ & H).
  apply in_map_iff in H as (w & [= -> ->] & H). apply in_app_iff in H as [H|H].
  - apply in_flat_map in H as (f & Hf & H).
    destruct (Hl f Hf) as [-> | ->], Ht as [<-|[<-|[]]]; vm_compute in H; simpl; intuition.
  - rewrite (Ho v H). simpl. tauto.
Qed.

(** The hypotheses of C72 and C74 hold for the example with all factors and periods. *)
Example C72_nonvacuous :
  exists c, get_measurements_corr hm_df hm_model AllFactors AllPeriods = Ok c /\
    co_index c = ["y1, 0"; "y2, 0"; "z, 0"; "o, 0"; "y1, 1"; "z, 1"; "o, 1"].
Proof.
  destruct (C72_measurement_correlations hm_model hm_p 2 hm_df [1; 2; 3]%Z [10; 20]%Z AllFactors
              ["f"; "g"] ["o"] AllPeriods [0; 1]) as (c & Hc & H).
  - exact hm_setting.
  - exact (select_all hm_model).
  - reflexivity.
  - repeat constructor; simpl; intuition discriminate.
  - discriminate.
  - intros t Ht. exists "z". destruct Ht as [<-|[<-|[]]]; vm_compute; tauto.
  - intros v t H. apply (hm_columns _ _ _ v t H).
    + unfold shown_measurements in H. apply in_flat_map in H as (s & Hs & H).
      now apply in_map_iff in H as (w & [= -> ->] & H).
    + simpl. intuition.
    + simpl. intuition.
  - exists c. split; [exact Hc|]. destruct H as [H _]. rewrite H. vm_compute. reflexivity.
Qed.

Lemma hm_columns_all v t :
  In (v, t) (shown_measurements hm_model 2 ["f"; "g"] ["o"] [0; 1]) -> In v (fr_columns hm_df).
Proof.
  intros H. apply (hm_columns _ _ _ v t H).
  - unfold shown_measurements in H. apply in_flat_map in H as (s & Hs & H).
    now apply in_map_iff in H as (w & [= -> ->] & H).
  - simpl. intuition.
  - simpl. intuition.
Qed.

Example C74_nonvacuous :
  exists c, get_quasi_scores_corr hm_df hm_model AllFactors AllPeriods = Ok c /\
    co_index c = ["f, 0"; "g, 0"; "o, 0"; "f, 1"; "g, 1"; "o, 1"].
Proof.
  destruct (C74_quasi_scores hm_model hm_p 2 hm_df [1; 2; 3]%Z [10; 20]%Z AllFactors
              ["f"; "g"] ["o"] AllPeriods [0; 1]) as (c & Hc & H).
  - exact hm_setting.
  - exact (select_all hm_model).
  - reflexivity.
  - repeat constructor; simpl; intuition discriminate.
  - discriminate.
  - discriminate.
  - intros t Ht. exists "z". destruct Ht as [<-|[<-|[]]]; vm_compute; tauto.
  - exact hm_columns_all.
  - exists c. split; [exact Hc|]. destruct H as [H _]. rewrite H. vm_compute. reflexivity.
Qed.

Lemma hm_nonzero t f v : hm_value (CLoadings, t, v, f) <> 0%R.
Proof. simpl. destruct (String.eqb v "z"); lra. Qed.

Lemma hm_single t v : single_loading hm_model hm_value t v = true.
Proof.
  unfold single_loading. apply Nat.leb_le.
  change (latent_of hm_model) with ["f"; "g"]. cbn [filter].
  destruct (measured_by hm_model t "f" v) eqn:E1, (measured_by hm_model t "g" v) eqn:E2; cbn [andb];
    try (destruct (Req_EM_T _ 0); simpl; lia); [|simpl; lia].
  exfalso. unfold measured_by in *. cbn in E1, E2.
  destruct t as [|[|t]]; cbn in E1, E2; [| |destruct t; discriminate];
    apply orb_prop in E2 as [E2|E2]; try discriminate; apply String.eqb_eq in E2; subst v; discriminate.
Qed.

(** The latent factors of the example: the measurements of the first period have no
    error. *)
Definition hm_truth (f : string) (t : nat) (id : Z) : R :=
  (match t with
   | 0 => if String.eqb f "f" then IZR (id - 1) else - IZR (id - 1)
   | _ => 0
   end)%R.

Example C76_nonvacuous :
  exists c, get_scores_corr hm_df hm_params hm_model AllFactors (OnePeriod 0) = Ok c /\
    co_index c = ["f"; "g"; "o"] /\
    correlates [1; 2; 3]%Z ["f"; "g"; "o"]
      [fun id => Some (IZR (id - 1)); fun id => Some (- IZR (id - 1))%R;
       data_variable hm_df [10; 20]%Z "o" 0] c.
Proof.
  destruct (C76_scores_exact hm_model hm_p 2 hm_df [1; 2; 3]%Z [10; 20]%Z AllFactors
              ["f"; "g"] ["o"] (OnePeriod 0) [0] hm_params hm_value hm_truth) as (c & Hc & H).
  - exact hm_setting.
  - exact (select_all hm_model).
  - reflexivity.
  - repeat constructor; simpl; intuition discriminate.
  - discriminate.
  - discriminate.
  - exact hm_values.
  - intros t Ht. apply hm_equations. simpl in *. tauto.
  - intros v t H. apply (hm_columns_all v t). simpl in H. simpl. tauto.
  - intros. apply hm_nonzero.
  - intros t f v id x [<-|[]] Hf Hv Hid _ Hx.
    apply (measured_by_spec hm_model hm_wf) in Hv.
    assert (Hvs : (f = "f" /\ (v = "y1" \/ v = "y2")) \/ (f = "g" /\ v = "z")).
    { destruct Hf as [<-|[<-|[]]]; apply smem_In in Hv; simpl in Hv; intuition. }
    destruct Hvs as [[-> [-> | ->]]|[-> ->]]; destruct Hid as [<-|[<-|[<-|[]]]];
      cbn in Hx; injection Hx as <-; cbn; lra.
  - intros t f id [<-|[]] Hf Hid. exists (if String.eqb f "f" then "y1" else "z").
    split; [|split; [apply hm_single|]].
    + apply (measured_by_spec hm_model hm_wf). destruct Hf as [<-|[<-|[]]]; reflexivity.
    + destruct Hf as [<-|[<-|[]]], Hid as [<-|[<-|[<-|[]]]]; discriminate.
  - exists c. split; [exact Hc|]. split; [|exact H]. destruct H as [H _]. rewrite H. reflexivity.
Qed.

(** A model with one measurement per factor. *)
Example C77_nonvacuous :
  exists c, get_quasi_scores_corr hm_df hm_model (OneFactor "f") (OnePeriod 1) = Ok c /\
            get_scores_corr hm_df hm_params hm_model (OneFactor "f") (OnePeriod 1) = Ok c.
Proof.
  apply (C77_quasi_scores_partial hm_model hm_p 2 hm_df [1; 2; 3]%Z [10; 20]%Z (OneFactor "f")
           ["f"] [] (OnePeriod 1) [1] hm_params hm_value).
  - exact hm_setting.
  - apply select_latent; [discriminate|]. simpl. tauto.
  - reflexivity.
  - repeat constructor; simpl; intuition discriminate.
  - discriminate.
  - discriminate.
  - exact hm_values.
  - intros t Ht. apply hm_equations. simpl in *. tauto.
  - intros v t H. apply (hm_columns_all v t). simpl in H. simpl. tauto.
  - intros t f [<-|[]] [<-|[]]. exists "y1". split; [vm_compute; reflexivity|].
    split; [apply hm_single|]. simpl. lra.
Qed.

Lemma one_two_three : average [0; 1; 2]%R = 1%R.
Proof. unfold average. cbn [sum_of length INR]. lra. Qed.

(** With a negative loading, they do not. *)
Theorem C77_quasi_scores_refuted :
  exists md p n df ids lv params value_of c c' r r',
    heatmap_setting md p n df ids lv /\ has_values md params value_of /\
    (forall f fs, In (f, fs) (md_factors md) -> fs_transition fs = TStr "linear") /\
    get_quasi_scores_corr df md AllFactors (OnePeriod 0) = Ok c /\
    get_scores_corr df params md AllFactors (OnePeriod 0) = Ok c' /\
    entry (co_cells c) 0 1 (Some r) /\ entry (co_cells c') 0 1 (Some r') /\ r = 1%R /\ r' = (-1)%R.
Proof.
  destruct C76_nonvacuous as (c' & Hc' & _ & H').
  destruct (C74_quasi_scores hm_model hm_p 2 hm_df [1; 2; 3]%Z [10; 20]%Z AllFactors
              ["f"; "g"] ["o"] (OnePeriod 0) [0]) as (c & Hc & H).
  - exact hm_setting.
  - exact (select_all hm_model).
  - reflexivity.
  - repeat constructor; simpl; intuition discriminate.
  - discriminate.
  - discriminate.
  - intros t Ht. exists "z". destruct Ht as [<-|[]]; vm_compute; tauto.
  - intros v t Hv. apply (hm_columns_all v t). simpl in Hv. simpl. tauto.
  - destruct H as (_ & _ & _ & _ & _ & H). destruct H' as (_ & _ & _ & _ & _ & H').
    destruct (H 0 1 _ _ eq_refl eq_refl) as (r & Hr & Hcr).
    destruct (H' 0 1 _ _ eq_refl eq_refl) as (r' & Hr' & Hcr').
    set (ids := [1; 2; 3]%Z) in *. set (lv := [10; 20]%Z) in *.
    assert (Hsd : standard_deviation [0; 1; 2]%R = 1%R).
    { unfold standard_deviation. rewrite one_two_three. cbn [sum_of length INR].
      replace (_ / _)%R with 1%R by field. apply sqrt_1. }
    assert (Hsd2 : standard_deviation [3; 4; 5]%R = 1%R).
    { unfold standard_deviation. replace (average [3; 4; 5]%R) with 4%R
        by (unfold average; cbn [sum_of length INR]; lra). cbn [sum_of length INR].
      replace (_ / _)%R with 1%R by field. apply sqrt_1. }
    assert (Hy1 : known ids (data_variable hm_df lv "y1" 0) = [0; 1; 2]%R) by reflexivity.
    assert (Hy2 : known ids (data_variable hm_df lv "y2" 0) = [3; 4; 5]%R) by reflexivity.
    assert (Hz : known ids (data_variable hm_df lv "z" 0) = [0; 1; 2]%R) by reflexivity.
    assert (Ha2 : average [3; 4; 5]%R = 4%R) by (unfold average; cbn [sum_of length INR]; lra).
    assert (Hf : forall id, In id ids -> quasi_score hm_model 2 hm_df ids lv "f" 0 id = Some (IZR id - 2)%R).
    { intros id Hid. unfold quasi_score.
      change (measurements_of hm_model 2 0 "f") with ["y1"; "y2"]. cbn [map].
      unfold standardized. rewrite Hy1, Hy2, Hsd, Hsd2, one_two_three, Ha2.
      destruct (Req_EM_T 1 0) as [E|_]; [lra|].
      destruct Hid as [<-|[<-|[<-|[]]]]; cbn; f_equal; unfold average; cbn; lra. }
    assert (Hg : forall id, In id ids -> quasi_score hm_model 2 hm_df ids lv "g" 0 id = Some (IZR id - 2)%R).
    { intros id Hid. unfold quasi_score.
      change (measurements_of hm_model 2 0 "g") with ["z"]. cbn [map].
      unfold standardized. rewrite Hz, Hsd, one_two_three.
      destruct (Req_EM_T 1 0) as [E|_]; [lra|].
      destruct Hid as [<-|[<-|[<-|[]]]]; cbn; f_equal; unfold average; cbn; lra. }
    assert (Eb : both_known ids (quasi_score hm_model 2 hm_df ids lv "f" 0) (quasi_score hm_model 2 hm_df ids lv "g" 0)
                 = [(-1, -1); (0, 0); (1, 1)]%R).
    { unfold both_known, ids. cbn [flat_map].
      rewrite !Hf, !Hg by (unfold ids; simpl; tauto). cbn [app].
      repeat (f_equal; try lra). }
    assert (Eb' : both_known ids (fun id => Some (IZR (id - 1))) (fun id => Some (- IZR (id - 1))%R)
                 = [(0, 0); (1, -1); (2, -2)]%R).
    { unfold both_known, ids. cbn. repeat (f_equal; try lra). }
    rewrite Eb in Hcr. rewrite Eb' in Hcr'.
    assert (Er : r = Some 1%R).
    { destruct r as [r|].
      - destruct Hcr as (_ & _ & ->). f_equal. unfold variance, covariance, average. cbn. rewrite ?Rplus_0_r.
        match goal with |- (?c / (sqrt ?v * sqrt ?w) = 1)%R =>
          replace v with c by field; replace w with c by field;
          assert (Hc0 : c = (2 / 3)%R) by field; rewrite Hc0 end.
        rewrite sqrt_sqrt by lra. field.
      - exfalso. destruct Hcr as [[k Hk]|[k Hk]];
          assert (K1 := Hk (-1)%R ltac:(simpl; tauto)); assert (K2 := Hk 1%R ltac:(simpl; tauto)); lra. }
    assert (Er' : r' = Some (-1)%R).
    { destruct r' as [r'|].
      - destruct Hcr' as (_ & _ & ->). f_equal. unfold variance, covariance, average. cbn. rewrite ?Rplus_0_r.
        match goal with |- (?c / (sqrt ?v * sqrt ?w) = _)%R =>
          replace v with (2 / 3)%R by field; replace w with (2 / 3)%R by field;
          replace c with (- (2 / 3))%R by field end.
        rewrite sqrt_sqrt by lra. field.
      - exfalso. destruct Hcr' as [[k Hk]|[k Hk]].
        + assert (K1 := Hk 0%R ltac:(simpl; tauto)). assert (K2 := Hk 1%R ltac:(simpl; tauto)). lra.
        + assert (K1 := Hk 0%R ltac:(simpl; tauto)). assert (K2 := Hk (-1)%R ltac:(simpl; tauto)). lra. }
    exists hm_model, hm_p, 2, hm_df, ids, lv, hm_params, hm_value, c, c', 1%R, (-1)%R.
    rewrite Er in Hr. rewrite Er' in Hr'.
    repeat (split; [first [exact hm_setting|exact hm_values|assumption
      |intros f fs [[= <- <-]|[[= <- <-]|[]]]; reflexivity|reflexivity]|]). reflexivity.
Qed.
Print Assumptions C77_quasi_scores_refuted.

(** A model with a period without measurements: the default for [periods] fails. *)
Definition hm_gap_model : model_dict :=
  mk_md [("f", mk_factor [["y1"]; []; ["y1"]] (TStr "linear") None)] None None None None
    (Some (mk_opts (Some 1) None None None None None None None)).

Definition hm_gap_df : frame R :=
  mk_frame ["y1"] [1; 2]%Z [0; 1; 2]%Z
    [mk_drow 1 0 (rcells [("y1", 1)]%R); mk_drow 2 0 (rcells [("y1", 2)]%R)].

Example C72_errors_nonvacuous :
  get_measurements_corr hm_gap_df hm_gap_model AllFactors AllPeriods = Err KeyError.
Proof.
  refine (proj2 (proj2 (proj2 (C72_errors hm_gap_model (get_ok (process_model hm_gap_model) small_p) 3 hm_gap_df
            [1; 2]%Z [0; 1; 2]%Z AllFactors ["f"] [] AllPeriods [0; 1; 2] _ _ _ _ _ _ _) _) _) 1 _ _).
  - split; [repeat constructor; simpl; intuition discriminate|]. intros a o H. discriminate.
  - vm_compute. reflexivity.
  - split; [eexists _, _; split; [left; reflexivity|reflexivity]|].
    intros f fs [[= <- <-]|[]]. simpl. lia.
  - intros r Hr. repeat (destruct Hr as [<-|Hr]; [simpl; tauto|]). destruct Hr.
  - split; [repeat constructor|]. intros z. split.
    + intros [<-|[<-|[]]].
      * eexists. split; [left; reflexivity|reflexivity].
      * eexists. split; [right; left; reflexivity|reflexivity].
    + intros (r & Hr & <-). repeat (destruct Hr as [<-|Hr]; [simpl; tauto|]). destruct Hr.
  - split; [repeat constructor|]. intros z. reflexivity.
  - reflexivity.
  - repeat constructor; simpl; intuition discriminate.
  - exact (select_all hm_gap_model).
  - simpl. tauto.
  - intros v H. vm_compute in H. intuition discriminate.
Qed.

(** The data set in other units is another data set. *)
Example C75_nonvacuous :
  (0 < 2)%R /\ data_variable (in_other_units "y1" 2 3 hm_df) [10; 20]%Z "y1" 0 3%Z = Some (2 * 2 + 3)%R /\
  (forall v t, In (v, t) (shown_measurements hm_model 2 ["f"; "g"] ["o"] [0; 1]) -> In v (fr_columns hm_df)) /\
  Permutation (fr_rows hm_df) (rev (fr_rows hm_df)).
Proof.
  split; [lra|]. split; [reflexivity|]. split; [exact hm_columns_all|]. apply Permutation_rev.
Qed.
