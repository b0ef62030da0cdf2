(** Which columns the functions of correlation_heatmap.py put together. *)
Require Import Reals String Arith ZArith Bool List Lia Lra Permutation.
From Verif Require Import PyBase ModelSpec ProcessModel CheckModel SpecModel SpecParse SpecIndex
  ParamsIndex ParseParams ParamsVec ProcessData SpecData SpecTransition ListFacts ProcessModelFacts
  AcceptFacts IndexFacts DataFacts SpecFacts PropsParse ScheduleFacts Heatmap SpecHeatmap HeatmapFacts.
Import ListNotations.
Open Scope string_scope.
Open Scope list_scope.
Open Scope nat_scope.

(** ** Lists *)

Lemma dropna_map {A} ids (f : A -> option R) :
  dropna (map f ids) = flat_map (fun id => match f id with Some x => [x] | None => [] end) ids.
Proof. induction ids as [|i ids IH]; simpl; [reflexivity|]. rewrite IH. now destruct (f i). Qed.

Lemma dropna_flat l :
  dropna l = flat_map (fun x : option R => match x with Some x => [x] | None => [] end) l.
Proof. induction l as [|[x|] l IH]; simpl; [reflexivity| |exact IH]. now rewrite IH. Qed.

Lemma mean_known l : mean l = average_known l.
Proof.
  unfold mean, average_known. rewrite <- dropna_flat. destruct (dropna l) as [|x xs]; [reflexivity|].
  now rewrite average_eq.
Qed.

Lemma mapM_Ok_in {A B} (g : A -> result B) (f : A -> B) l :
  (forall x, In x l -> g x = Ok (f x)) -> mapM g l = Ok (map f l).
Proof.
  induction l as [|x l IH]; intros H; simpl; [reflexivity|].
  rewrite (H x) by now left. simpl. rewrite IH; [reflexivity|]. intros y Hy. apply H. now right.
Qed.

(** The first iteration that raises decides. *)
Lemma mapM_Err_in {A B} (g : A -> result B) e l x :
  In x l -> (forall y, In y l -> (exists b, g y = Ok b) \/ g y = Err e) -> g x = Err e ->
  mapM g l = Err e.
Proof.
  induction l as [|y l IH]; intros Hx Hall He; [destruct Hx|]. simpl.
  destruct Hx as [->|Hx]; [now rewrite He|].
  destruct (Hall y (or_introl eq_refl)) as [[b Hb]|Hb]; rewrite Hb; [|reflexivity]. simpl.
  rewrite IH; [reflexivity|exact Hx| |exact He]. intros z Hz. apply Hall. now right.
Qed.

Lemma row_means_eq ids (hs : list (Z -> num)) :
  row_means (length ids) (map (fun h => map h ids) hs) =
  map (fun id => if existsb is_infinite (map (fun h => h id) hs) then None
                 else average_known (map (fun h => finite (h id)) hs)) ids.
Proof.
  unfold row_means.
  assert (H : forall g : list num -> option R,
    map (fun i => g (map (fun c => nth i c Missing) (map (fun h : Z -> num => map h ids) hs)))
        (range (length ids)) = map (fun id => g (map (fun h => h id) hs)) ids).
  { intros g. apply list_ext. intros i. destruct (Nat.lt_ge_cases i (length ids)) as [Hi|Hi].
    - rewrite nth_error_map, (nth_error_range _ _ Hi). simpl.
      destruct (nth_error ids i) as [id|] eqn:E; [|apply nth_error_None in E; lia].
      rewrite nth_error_map, E. simpl. f_equal. f_equal. rewrite map_map. apply map_ext. intros h.
      apply nth_of_nth_error. now rewrite nth_error_map, E.
    - rewrite (proj2 (nth_error_None _ _)), (proj2 (nth_error_None _ _)); [reflexivity| |];
        rewrite map_length; unfold range; rewrite ?seq_length; lia. }
  rewrite (H (fun row => if existsb is_infinite row then None else mean (map finite row))).
  apply map_ext. intros id. rewrite mean_known, map_map. reflexivity.
Qed.

(** ** The balanced data set *)

Section Data.
  Variables (df : frame R) (ids lv : list Z).
  Hypothesis Hdf : wf_frame df.
  Hypothesis Hu : unique_index df.
  Hypothesis Hids : ids_of df ids.
  Hypothesis Hlv : levels_of df lv.

  Definition balanced (ts : list nat) : list (prow R) :=
    flat_map (fun i => map (fun t => mk_prow i t (raw df lv i t)) ts) (codes df ids).

  Lemma pre_process_periods ts : pre_process_data df ts = Ok (balanced ts).
  Proof.
    unfold pre_process_data, reindex. rewrite (proj2 (encode_dup df lv Hdf Hlv) Hu).
    rewrite (codes_eq df ids lv Hdf Hids Hlv).
    f_equal. unfold balanced, codes. rewrite !flat_map_map. apply flat_map_ext_in. intros z Hz.
    apply map_ext. intros t. rewrite (find_encode df ids lv Hdf Hids Hlv z t Hu Hz).
    now rewrite (raw_code df ids lv Hdf Hids z t Hz).
  Qed.

  Lemma in_period_balanced ts t : NoDup ts -> In t ts ->
    in_period t (balanced ts) = map (fun i => mk_prow i t (raw df lv i t)) (codes df ids).
  Proof.
    intros Hnd Ht. unfold balanced, in_period. rewrite filter_flat_map.
    transitivity (flat_map (fun i => [mk_prow i t (raw df lv i t)]) (codes df ids)).
    - apply flat_map_ext. intros i. rewrite filter_map_comm. simpl.
      assert (E : filter (fun x => x =? t) ts = [t]).
      { clear - Hnd Ht. induction Hnd as [|x l Hx Hnd IH]; [destruct Ht|]. simpl.
        destruct (Nat.eqb_spec x t) as [->|Hne].
        - f_equal. apply filter_none. intros y Hy. apply Nat.eqb_neq. intros ->. contradiction.
        - apply IH. destruct Ht as [->|Ht]; [congruence|exact Ht]. }
      rewrite E. reflexivity.
    - induction (codes df ids) as [|i l IH]; simpl; [reflexivity|]. now rewrite IH.
  Qed.

  Lemma length_in_period ts t : NoDup ts -> In t ts ->
    length (in_period t (balanced ts)) = length ids.
  Proof.
    intros H1 H2. rewrite in_period_balanced by assumption. unfold codes. now rewrite !map_length.
  Qed.

  Lemma column_balanced ts t v : NoDup ts -> In t ts ->
    column v (in_period t (balanced ts)) = map (data_variable df lv v t) ids.
  Proof.
    intros H1 H2. rewrite in_period_balanced by assumption. unfold column. rewrite map_map. simpl.
    unfold codes. rewrite map_map. apply map_ext_in. intros z Hz. unfold data_variable.
    now rewrite (raw_code df ids lv Hdf Hids z t Hz).
  Qed.

  Lemma get_col_balanced ts t v : NoDup ts -> In t ts -> In v (fr_columns df) ->
    get_col (fr_columns df) (balanced ts) t v = Ok (map (data_variable df lv v t) ids).
  Proof.
    intros H1 H2 H3. unfold get_col. rewrite (proj2 (smem_In _ _) H3).
    now rewrite column_balanced.
  Qed.
End Data.

(** ** Standardization *)

Lemma std_zero_constant xs : 2 <= length xs ->
  sqrt (dev2 xs / (INR (length xs) - 1)) = 0%R -> forall x, In x xs -> x = average xs.
Proof.
  intros Hl H x Hx.
  assert (1 < INR (length xs))%R by (apply (lt_INR 1); lia).
  assert (Hd := dev2_nonneg xs).
  apply sqrt_eq_0 in H.
  - assert (dev2 xs = 0)%R.
    { apply (Rmult_eq_compat_r (INR (length xs) - 1)) in H. rewrite Rmult_0_l in H.
      rewrite <- H. field. lra. }
    assert ((x - average xs) = 0)%R; [|lra].
    exact (sum_of_sq_zero (fun x => x - average xs)%R xs H1 x Hx).
  - apply Rmult_le_pos; [exact Hd|]. left. apply Rinv_0_lt_compat. lra.
Qed.

Lemma standardize_cell ids (f : variable) id : In id ids ->
  let c := map f ids in
  let x := match f id, mean c, std c with
           | Some x, Some m, Some s => fdiv (x - m)%R s
           | _, _, _ => Missing
           end in
  is_infinite x = false /\ finite x = standardized ids f id.
Proof.
  intros Hid. cbv zeta. unfold standardized. destruct (f id) as [x|] eqn:Ex; [|now split].
  assert (Hx : In x (known ids f)).
  { unfold known. apply in_flat_map. exists id. rewrite Ex. simpl. auto. }
  unfold std, mean. rewrite dropna_map. fold (known ids f).
  unfold standard_deviation. fold (dev2 (known ids f)).
  destruct (known ids f) as [|y [|z l]] eqn:Ek; [destruct Hx| |].
  - destruct Hx as [->|[]]. rewrite (proj2 (dev2_zero [x])); [|exists x; intros w [<-|[]]; reflexivity].
    assert (E0 : forall w, (0 / w = 0)%R) by (intros; unfold Rdiv; ring).
    rewrite E0, sqrt_0. split; [reflexivity|].
    destruct (Req_EM_T 0 0); [reflexivity|congruence].
  - rewrite !average_eq, hsum_map. fold (dev2 (y :: z :: l)).
    unfold fdiv. destruct (Req_EM_T _ 0) as [E|E].
    + rewrite (std_zero_constant (y :: z :: l)) with (x := x); [|simpl; lia|exact E|exact Hx].
      rewrite Rminus_diag_eq by reflexivity. destruct (Req_EM_T 0 0); [now split|congruence].
    + now split.
Qed.

(** ** Putting periods together *)

(** A table with named variables as columns. *)
Definition table_of (ids : list Z) (items : list (string * variable)) : columns :=
  map (fun vf => (fst vf, map (snd vf) ids)) items.

Lemma table_of_tabulate ids items :
  table_of ids items = tabulate ids (map fst items) (map snd items).
Proof.
  unfold table_of, tabulate. induction items as [|[v f] items IH]; simpl; [reflexivity|]. now rewrite IH.
Qed.

Lemma corr_table_of ids items :
  correlates ids (map fst items) (map snd items) (corr (table_of ids items)).
Proof. rewrite table_of_tabulate. apply corr_correlates. now rewrite !map_length. Qed.

Definition stacked (ts : list nat) (items : nat -> list (string * variable))
  : list (string * variable) :=
  flat_map (fun t => map (fun vf => (labelled ts (fst vf) t, snd vf)) (items t)) ts.

Lemma concat_frames_same ids (items : list (list (string * variable))) : items <> [] ->
  concat_frames (map (table_of ids) items) = Ok (table_of ids (concat items)).
Proof.
  intros Hne.
  assert (Ef : flat_map (fun df => df) (map (table_of ids) items) = table_of ids (concat items)).
  { clear Hne. induction items as [|i items IH]; simpl; [reflexivity|]. rewrite IH. unfold table_of.
    now rewrite map_app. }
  assert (Hgoal : forall n, n <= length ids ->
     map (fun c => (fst c, snd c ++ repeat None (n - length (snd c)))) (table_of ids (concat items))
     = table_of ids (concat items)).
  { intros n Hn. unfold table_of. rewrite map_map. apply map_ext. intros [v f]. simpl.
    rewrite map_length. replace (n - length ids) with 0 by lia. simpl. now rewrite app_nil_r. }
  assert (Hmax : list_max (map (fun c => length (snd c)) (table_of ids (concat items))) <= length ids).
  { apply list_max_le. apply Forall_forall. intros k Hk. unfold table_of in Hk. rewrite map_map in Hk.
    apply in_map_iff in Hk as ([v f] & <- & _). simpl. now rewrite map_length. }
  specialize (Hgoal _ Hmax).
  transitivity (Ok (map (fun c => (fst c, snd c ++ repeat None
      (list_max (map (fun c => length (snd c)) (flat_map (fun df => df) (map (table_of ids) items)))
       - length (snd c)))) (flat_map (fun df => df) (map (table_of ids) items)))).
  - destruct items; [congruence|reflexivity].
  - rewrite Ef, Hgoal. reflexivity.
Qed.

Lemma stack_periods_ok ids single ts items : ts <> [] ->
  (forall t, In t ts -> single t = Ok (table_of ids (items t))) ->
  stack_periods single ts = Ok (table_of ids (stacked ts items)).
Proof.
  intros Hne H. unfold stacked, labelled.
  destruct ts as [|t [|t' ts]]; [congruence| |].
  - cbn [stack_periods]. rewrite (H t) by now left. cbn [length Nat.eqb flat_map].
    rewrite app_nil_r. f_equal. f_equal. rewrite <- (map_id (items t)) at 1. apply map_ext. now intros [v f].
  - set (l := t :: t' :: ts) in *.
    transitivity (do to_concat <- mapM (fun t => do df <- single t; Ok (add_suffix t df)) l;
                  concat_frames to_concat); [reflexivity|].
    assert (El : (length l =? 1) = false) by reflexivity. rewrite El.
    rewrite (mapM_Ok_in _ (fun t => table_of ids (map (fun vf => ((fst vf ++ ", " ++ str_nat t)%string, snd vf)) (items t)))).
    + cbn [rbind]. rewrite flat_map_concat_map.
      rewrite <- (map_map (fun t => map (fun vf => ((fst vf ++ ", " ++ str_nat t)%string, snd vf)) (items t)) (table_of ids)).
      apply concat_frames_same. unfold l. discriminate.
    + intros s Hs. rewrite (H s Hs). cbn [rbind]. f_equal. unfold add_suffix, table_of.
      rewrite !map_map. reflexivity.
Qed.

Lemma stack_periods_err single ts e t :
  In t ts -> (forall t, In t ts -> (exists df, single t = Ok df) \/ single t = Err e) ->
  single t = Err e -> stack_periods single ts = Err e.
Proof.
  intros Ht Hall He. destruct ts as [|t0 [|t1 ts]]; [destruct Ht| |].
  - destruct Ht as [->|[]]. exact He.
  - set (l := t0 :: t1 :: ts) in *.
    transitivity (do to_concat <- mapM (fun t => do df <- single t; Ok (add_suffix t df)) l;
                  concat_frames to_concat); [reflexivity|].
    rewrite (mapM_Err_in _ e l t Ht); [reflexivity| |now rewrite He].
    intros s Hs. destruct (Hall s Hs) as [[df Hdf]|Hdf]; rewrite Hdf; [left; eexists|right]; reflexivity.
Qed.

(** ** Measurements of a factor *)

Section Model.
  Variables (md : model_dict) (p : processed) (n : nat).
  Hypothesis Hwf : wf_dicts md.
  Hypothesis Hp : process_model md = Ok p.
  Hypothesis Hn : has_n_periods md n.
  Hypothesis Hclash : forall k f g v, measures md k f v -> ~ anchors md k g v.

  Lemma measured_by_spec t f v : measured_by md t f v = true <-> measures md t f v.
  Proof.
    unfold measured_by, measures. destruct Hwf as [Hnd _]. split.
    - destruct (dget (md_factors md) f) as [fs|] eqn:E; [|discriminate]. intros H.
      apply smem_In in H. exists fs, (nth t (fs_measurements fs) []).
      split; [now apply dget_In|]. split; [|exact H].
      apply nth_error_of_nth. apply Nat.nle_gt. intros Hle. rewrite nth_overflow in H by exact Hle.
      destruct H.
    - intros (fs & ms & Hin & Hms & Hv). rewrite (In_dget _ _ _ Hnd Hin).
      rewrite (nth_of_nth_error _ _ _ [] Hms). now apply smem_In.
  Qed.

  Lemma measures_latent t f v : measures md t f v -> In f (latent_of md).
  Proof. intros (fs & ms & H & _). exact (in_map fst _ _ H). Qed.

  Lemma period_info_ok t : (exists v, In (t, v) (equations md n)) ->
    period_info (p_update p) t = Ok (filter (fun r => u_period r =? t) (p_update p)).
  Proof.
    intros [v Hv]. rewrite (equations_update md p n Hwf Hp Hn) in Hv.
    apply in_map_iff in Hv as (r & E & Hr). unfold u_key in E. injection E as E1 E2.
    unfold period_info.
    assert (Hin : In r (filter (fun r => u_period r =? t) (p_update p))).
    { apply filter_In. split; [exact Hr|]. now apply Nat.eqb_eq. }
    destruct (filter _ _); [destruct Hin|reflexivity].
  Qed.

  Lemma period_info_none t : (forall v, ~ In (t, v) (equations md n)) ->
    period_info (p_update p) t = Err KeyError.
  Proof.
    intros H. unfold period_info.
    destruct (filter _ _) as [|r l] eqn:E; [reflexivity|]. exfalso.
    assert (Hin : In r (filter (fun r => u_period r =? t) (p_update p))) by (rewrite E; now left).
    apply filter_In in Hin as [Hr Ht]. apply Nat.eqb_eq in Ht.
    apply (H (u_var r)). rewrite (equations_update md p n Hwf Hp Hn). apply in_map_iff.
    exists r. unfold u_key. now rewrite Ht.
  Qed.

  Lemma factor_measurements_eq t f :
    factor_measurements (filter (fun r => u_period r =? t) (p_update p)) f = measurements_of md n t f.
  Proof.
    unfold factor_measurements, measurements_of. rewrite (equations_update md p n Hwf Hp Hn).
    rewrite filter_map_comm with (g := u_key), map_map. unfold u_key at 2. cbn [snd fst].
    rewrite filter_map_comm.
    unfold u_key. cbn [snd]. f_equal. apply filter_ext_in_eq. intros r Hr. apply filter_In in Hr as [Hr Ht].
    apply Nat.eqb_eq in Ht.
    apply eq_true_iff_eq. rewrite measured_by_spec, andb_true_iff.
    rewrite (p_update_flag md p r f Hwf Hp Hr), Ht.
    pose proof (proj2 (p_update_purpose md p r Hwf Hp Hr)) as Hpu. rewrite Ht in Hpu. split.
    - intros [[H|H] Hm]; [exact H|]. exfalso.
      destruct (u_purpose r) as [[]|] eqn:E; try discriminate.
      apply (proj1 Hpu); [reflexivity|]. now exists f.
    - intros H. split; [now left|].
      rewrite (proj2 Hpu); [reflexivity|]. intros [g Hg]. exact (Hclash _ _ _ _ H Hg).
  Qed.

  Lemma In_measurements_of t f v : In v (measurements_of md n t f) <-> measures md t f v.
  Proof.
    unfold measurements_of. rewrite filter_In, measured_by_spec. split; [intros [_ H]; exact H|].
    intros H. split; [|exact H]. rewrite in_map_iff. exists (t, v). split; [reflexivity|].
    apply filter_In. split; [|apply Nat.eqb_refl].
    rewrite <- (equations_keys md p n Hwf Hp Hn). apply (In_p_update_keys md p Hwf Hp).
    exists f. now left.
  Qed.

  Lemma process_factors_ok factors latent observed : selects md factors latent observed ->
    process_factors (p_labels p) factors = Ok (latent, observed).
  Proof.
    destruct (p_labels_eq md p Hp) as (El & Eo & _).
    intros H. unfold process_factors. rewrite El, Eo. destruct H as [|s Hs H|s Hs H H'| | |l Hl].
    - reflexivity.
    - rewrite (proj2 (String.eqb_neq _ _) Hs), (proj2 (smem_In _ _) H). reflexivity.
    - rewrite (proj2 (String.eqb_neq _ _) Hs), (proj2 (smem_false _ _) H), (proj2 (smem_In _ _) H').
      reflexivity.
    - reflexivity.
    - reflexivity.
    - destruct l as [|x l]; [congruence|]. f_equal. f_equal; apply filter_ext_in_eq.
      + intros y _. destruct (in_dec string_dec y (latent_of md)) as [Hy|Hy];
          [now apply smem_In|now apply smem_false].
      + intros y Hy. destruct (in_dec string_dec y (latent_of md)) as [Hy'|Hy'].
        * rewrite (proj2 (smem_In _ _) Hy'). reflexivity.
        * rewrite (proj2 (smem_false _ _) Hy'). simpl.
          destruct (in_dec string_dec y (observed_of md)) as [Ho|Ho];
            [now apply smem_In|now apply smem_false].
  Qed.

  Lemma selects_latent factors latent observed f : selects md factors latent observed ->
    In f latent -> In f (latent_of md).
  Proof.
    intros H Hf. destruct H; try exact Hf.
    - destruct Hf as [<-|[]]. assumption.
    - destruct Hf.
    - apply filter_In in Hf as [_ Hf]. now destruct (in_dec string_dec f (latent_of md)).
  Qed.

  Lemma process_periods_ok arg ts : chosen_periods n arg ts -> process_periods arg (p_dims p) = ts.
  Proof.
    destruct (p_dims_eq md p Hp) as (_ & _ & _ & _ & Hn' & _).
    destruct arg; simpl; intros ->; try reflexivity.
    now rewrite (has_n_periods_fun md _ _ Hn' Hn).
  Qed.
End Model.

(** ** The table for one period *)

Section Single.
  Variables (md : model_dict) (p : processed) (n : nat) (df : frame R) (ids lv : list Z).
  Hypothesis Hset : heatmap_setting md p n df ids lv.
  Variables (latent observed : list string) (ts : list nat) (t : nat).
  Hypothesis Hnd : NoDup ts.
  Hypothesis Ht : In t ts.
  Hypothesis Hobs : forall f, In f observed -> In f (fr_columns df).
  Hypothesis Hcols : forall f v, In f latent -> measures md t f v -> In v (fr_columns df).

  Let cols := fr_columns df.
  Let rows := balanced df ids lv ts.

  Lemma single_col v : In v cols -> get_col cols rows t v = Ok (map (data_variable df lv v t) ids).
  Proof.
    intros Hv. destruct Hset as (_ & _ & _ & _ & Hdf & Hu & Hids & Hlv).
    now apply get_col_balanced.
  Qed.

  Lemma single_named v : In v cols ->
    get_named_col cols rows t v = Ok (v, map (data_variable df lv v t) ids).
  Proof. intros Hv. unfold get_named_col. now rewrite single_col. Qed.

  Lemma observed_ok :
    mapM (get_named_col cols rows t) observed =
    Ok (table_of ids (map (fun f => (f, data_variable df lv f t)) observed)).
  Proof.
    rewrite (mapM_Ok_in _ (fun f => (f, map (data_variable df lv f t) ids))).
    - unfold table_of. now rewrite map_map.
    - intros f Hf. apply single_named. now apply Hobs.
  Qed.

  Lemma setting_measures f v : In v (measurements_of md n t f) <-> measures md t f v.
  Proof. destruct Hset as (Hwf & Hp & Hn & _). now apply (In_measurements_of md p n). Qed.

  Hypothesis Heq : exists v, In (t, v) (equations md n).

  Lemma setting_info :
    period_info (p_update p) t = Ok (filter (fun r => u_period r =? t) (p_update p)).
  Proof. destruct Hset as (Hwf & Hp & Hn & _). now apply (period_info_ok md p n). Qed.

  Lemma setting_measurements f :
    factor_measurements (filter (fun r => u_period r =? t) (p_update p)) f = measurements_of md n t f.
  Proof. destruct Hset as (Hwf & Hp & Hn & Hc & _). now apply factor_measurements_eq. Qed.

  Lemma measurement_single_ok :
    measurement_data_single cols rows (p_update p) latent observed t =
    Ok (table_of ids (map (fun v => (v, data_variable df lv v t))
                          (flat_map (measurements_of md n t) latent ++ observed))).
  Proof.
    unfold measurement_data_single. rewrite setting_info. cbn [rbind].
    rewrite (flat_map_ext _ (measurements_of md n t)) by (intros; apply setting_measurements).
    rewrite (mapM_Ok_in _ (fun v => (v, map (data_variable df lv v t) ids))).
    - unfold table_of. now rewrite map_map.
    - intros v Hv. apply single_named. apply in_app_iff in Hv as [Hv|Hv]; [|now apply Hobs].
      apply in_flat_map in Hv as (f & Hf & Hv). apply (Hcols f); [exact Hf|].
      now apply setting_measures.
  Qed.

  Definition score_items (sc : string -> nat -> variable) : list (string * variable) :=
    map (fun f => (f, sc f t)) latent ++ map (fun f => (f, data_variable df lv f t)) observed.

  Lemma concat_score_items sc : latent ++ observed <> [] ->
    concat_series (table_of ids (map (fun f => (f, sc f t)) latent) ++
                   table_of ids (map (fun f => (f, data_variable df lv f t)) observed)) =
    Ok (table_of ids (score_items sc)).
  Proof.
    intros Hne. unfold score_items, table_of. rewrite <- map_app. unfold concat_series.
    destruct (map _ (map _ latent ++ map _ observed)) eqn:E; [|reflexivity]. exfalso.
    apply map_eq_nil, app_eq_nil in E as [E1 E2]. apply map_eq_nil in E1, E2.
    rewrite E1, E2 in Hne. now apply Hne.
  Qed.

  Lemma quasi_single_ok : latent ++ observed <> [] ->
    quasi_scores_single cols rows (p_update p) latent observed t =
    Ok (table_of ids (score_items (quasi_score md n df ids lv))).
  Proof.
    intros Hne. unfold quasi_scores_single. rewrite setting_info. cbn [rbind].
    rewrite (mapM_Ok_in _ (fun f => (f, map (quasi_score md n df ids lv f t) ids))).
    - cbn [rbind]. rewrite observed_ok. cbn [rbind].
      rewrite <- concat_score_items by exact Hne. unfold table_of. now rewrite !map_map.
    - intros f Hf. rewrite setting_measurements.
      rewrite (mapM_Ok_in _ (fun v => map (data_variable df lv v t) ids)).
      2:{ intros v Hv. apply single_col. apply (Hcols f); [exact Hf|]. now apply setting_measures. }
      cbn [rbind]. f_equal. f_equal.
      assert (El : length (in_period t rows) = length ids).
      { destruct Hset as (_ & _ & _ & _ & Hdf & Hu & Hids & Hlv). now apply length_in_period. }
      rewrite El, map_map.
      set (h := fun (v : string) (id : Z) =>
             match data_variable df lv v t id, mean (map (data_variable df lv v t) ids),
                   std (map (data_variable df lv v t) ids) with
             | Some x, Some m, Some s => fdiv (x - m)%R s
             | _, _, _ => Missing
             end).
      assert (E : map (fun v => rescale (mean (map (data_variable df lv v t) ids))
                                  (std (map (data_variable df lv v t) ids))
                                  (map (data_variable df lv v t) ids)) (measurements_of md n t f)
                  = map (fun g => map g ids) (map h (measurements_of md n t f))).
      { rewrite map_map. apply map_ext. intros v. unfold rescale. rewrite map_map. reflexivity. }
      rewrite E, row_means_eq. apply map_ext_in. intros id Hid. rewrite !map_map.
      assert (Hh : forall v, is_infinite (h v id) = false /\
                             finite (h v id) = standardized ids (data_variable df lv v t) id).
      { intros v. exact (standardize_cell ids (data_variable df lv v t) id Hid). }
      assert (Hex : existsb is_infinite (map (fun v => h v id) (measurements_of md n t f)) = false).
      { apply not_true_iff_false. intros Hx. apply existsb_exists in Hx as (x & Hx & Hi).
        apply in_map_iff in Hx as (v & <- & _). rewrite (proj1 (Hh v)) in Hi. discriminate. }
      rewrite Hex. unfold quasi_score. f_equal. apply map_ext. intros v. apply Hh.
  Qed.

  (** *** Scores *)
  Variables (params : list (label * R)) (value_of : label -> R).
  Hypothesis Hpnd : NoDup (map fst params).
  Hypothesis Hpars : forall lb, In lb (map fst params) <-> is_param md lb.
  Hypothesis Hval : forall lb x, In (lb, x) params -> value_of lb = x.

  Let kept := filter (fun row : label * R => cat_eqb (lb_cat (fst row)) CControls ||
                                             cat_eqb (lb_cat (fst row)) CLoadings) params.

  Lemma cat_eqb_spec a b : cat_eqb a b = true <-> a = b.
  Proof. destruct a, b; simpl; split; congruence. Qed.

  Lemma param_row lb : is_param md lb -> In (lb, value_of lb) params.
  Proof.
    intros H. apply Hpars in H. apply in_map_iff in H as ([lb' x] & E & Hin). simpl in E. subst lb'.
    now rewrite (Hval _ _ Hin).
  Qed.

  Lemma kept_period_cat row c : c = CControls \/ c = CLoadings ->
    In row (filter (fun row => cat_eqb (lb_cat (fst row)) c)
             (filter (fun row => lb_period (fst row) =? t) kept)) <->
    In row params /\ lb_period (fst row) = t /\ lb_cat (fst row) = c.
  Proof.
    intros Hc. unfold kept. rewrite !filter_In, orb_true_iff, !cat_eqb_spec, Nat.eqb_eq.
    destruct Hc as [-> | ->]; tauto.
  Qed.

  Lemma is_param_loading k v f : is_param md (CLoadings, k, v, f) -> involves md k f v /\ In f (latent_of md).
  Proof. inversion 1. auto. Qed.

  Lemma count_loadings v : (exists f, measures md t f v) ->
    length (filter (fun row => String.eqb (lb_name1 (fst row)) v &&
                               (if Req_EM_T (snd row) 0 then false else true))
             (filter (fun row => cat_eqb (lb_cat (fst row)) CLoadings)
               (filter (fun row => lb_period (fst row) =? t) kept)))
    = length (filter (fun f => measured_by md t f v &&
                (if Req_EM_T (value_of (CLoadings, t, v, f)) 0 then false else true)) (latent_of md)).
  Proof.
    destruct Hset as (Hwf & Hp & Hn & Hclash & _). intros [f0 Hf0].
    set (l1 := filter _ (filter _ _)). set (l2 := filter _ (latent_of md)).
    transitivity (length (map (fun row => lb_name2 (fst row)) l1)); [now rewrite map_length|].
    assert (Hl1 : forall row, In row l1 <-> In row params /\ lb_period (fst row) = t /\
               lb_cat (fst row) = CLoadings /\ lb_name1 (fst row) = v /\ snd row <> 0%R).
    { intros row. unfold l1. rewrite filter_In, kept_period_cat by (right; reflexivity).
      rewrite andb_true_iff, String.eqb_eq. destruct (Req_EM_T (snd row) 0) as [E|E].
      - split; [intros (_ & _ & [=])|]. intros H. exfalso. tauto.
      - tauto. }
    apply Permutation_length, NoDup_Permutation.
    - apply NoDup_map_inj.
      + unfold l1. apply NoDup_filter, NoDup_filter, NoDup_filter, NoDup_filter.
        apply (NoDup_map_inv fst). exact Hpnd.
      + intros [[[[c k] a] b] x] [[[[c' k'] a'] b'] x'] H H' E.
        apply Hl1 in H as (H & E1 & E2 & E3 & _). apply Hl1 in H' as (H' & E1' & E2' & E3' & _).
        cbn in *. subst. f_equal. rewrite <- (Hval _ _ H), <- (Hval _ _ H'). reflexivity.
    - apply NoDup_filter. exact (proj1 Hwf).
    - intros f. unfold l2. rewrite filter_In, in_map_iff, andb_true_iff, (measured_by_spec md Hwf).
      split.
      + intros ([[[[c k] a] b] x] & E & H). apply Hl1 in H as (H & E1 & E2 & E3 & Hx). cbn in *. subst.
        assert (Hpar : is_param md (CLoadings, t, v, f)).
        { apply Hpars. apply in_map_iff. eexists. split; [|exact H]. reflexivity. }
        apply is_param_loading in Hpar as [Hin Hlat].
        split; [exact Hlat|]. split.
        * destruct Hin as [Hin|Hin]; [exact Hin|]. exfalso. exact (Hclash _ _ _ _ Hf0 Hin).
        * rewrite (Hval _ _ H). destruct (Req_EM_T x 0); [contradiction|reflexivity].
      + intros (Hlat & Hm & Hx).
        assert (Hpar : is_param md (CLoadings, t, v, f)).
        { apply par_loading; [now left|exact Hlat]. }
        exists ((CLoadings, t, v, f), value_of (CLoadings, t, v, f)). split; [reflexivity|].
        apply Hl1. split; [now apply param_row|]. cbn. repeat split.
        destruct (Req_EM_T (value_of (CLoadings, t, v, f)) 0); [discriminate|assumption].
  Qed.

  (** Looking up a row by name. *)
  Lemma find_row (P : label * R -> bool) l lb :
    In (lb, value_of lb) l -> (forall row, In row l -> P row = true -> fst row = lb) ->
    P (lb, value_of lb) = true -> (forall row, In row l -> In row params) ->
    find P l = Some (lb, value_of lb).
  Proof.
    intros Hin Huniq HP Hsub. destruct (find P l) as [[lb' x]|] eqn:E.
    - apply find_some in E as [Hin' HP']. assert (E := Huniq _ Hin' HP'). simpl in E. subst lb'.
      now rewrite (Hval _ _ (Hsub _ Hin')).
    - exfalso. rewrite (find_none _ _ E _ Hin) in HP. discriminate.
  Qed.

  Lemma scores_single_ok : latent ++ observed <> [] ->
    (forall f, In f latent -> In f (latent_of md)) ->
    (exists f v, measures md t f v) ->
    (forall f v, In f latent -> measures md t f v -> single_loading md value_of t v = true ->
       value_of (CLoadings, t, v, f) <> 0%R) ->
    scores_single cols rows (p_update p) latent observed kept t =
    Ok (table_of ids (score_items (score md n df lv value_of))).
  Proof.
    intros Hne Hlat [f0 [v0 Hm0]] Hnz.
    assert (Hwf : wf_dicts md) by apply Hset.
    unfold scores_single. rewrite setting_info. cbn [rbind].
    set (kp := filter (fun row => lb_period (fst row) =? t) kept).
    assert (HL := fun row => kept_period_cat row CLoadings (or_intror eq_refl)).
    assert (HC := fun row => kept_period_cat row CControls (or_introl eq_refl)).
    assert (HCL := count_loadings). fold kp in HL, HC, HCL.
    set (lds := filter (fun row => cat_eqb (lb_cat (fst row)) CLoadings) kp) in *.
    set (cts := filter (fun row => cat_eqb (lb_cat (fst row)) CControls) kp) in *.
    assert (E1 : match lds with [] => Err KeyError | r :: l => Ok (r :: l) end = Ok lds).
    { assert (Hin : In ((CLoadings, t, v0, f0), value_of (CLoadings, t, v0, f0)) lds).
      { apply HL. split; [|split; reflexivity]. apply param_row, par_loading; [now left|].
        exact (measures_latent md t f0 v0 Hm0). }
      destruct lds; [destruct Hin|reflexivity]. }
    assert (Heqn : forall f v, measures md t f v -> is_equation md t v) by (intros f v H; exists f; now left).
    assert (E2 : match cts with [] => Err KeyError | r :: l => Ok (r :: l) end = Ok cts).
    { assert (Hin : In ((CControls, t, v0, "constant"), value_of (CControls, t, v0, "constant")) cts).
      { apply HC. split; [|split; reflexivity]. apply param_row, par_control; [|now left].
        now apply (Heqn f0). }
      destruct cts; [destruct Hin|reflexivity]. }
    rewrite E1, E2. cbn [rbind].
    rewrite (mapM_Ok_in _ (fun f => (f, map (score md n df lv value_of f t) ids))).
    - cbn [rbind]. rewrite observed_ok. cbn [rbind].
      rewrite <- concat_score_items by exact Hne. unfold table_of. now rewrite !map_map.
    - intros f Hf. rewrite setting_measurements.
      assert (Ems : filter (fun m => negb (1 <? length (filter (fun row => String.eqb (lb_name1 (fst row)) m &&
                       (if Req_EM_T (snd row) 0 then false else true)) lds))) (measurements_of md n t f)
                    = filter (single_loading md value_of t) (measurements_of md n t f)).
      { apply filter_ext_in_eq. intros v Hv. apply setting_measures in Hv.
        rewrite HCL by now exists f. unfold single_loading. rewrite Nat.leb_antisym. reflexivity. }
      rewrite Ems.
      rewrite (mapM_Ok_in _ (fun v => (v, map (data_variable df lv v t) ids))).
      2:{ intros v Hv. apply filter_In in Hv as [Hv _]. apply setting_measures in Hv.
          rewrite single_col; [reflexivity|]. now apply (Hcols f). }
      cbn [rbind].
      set (ms := filter (single_loading md value_of t) (measurements_of md n t f)).
      set (h := fun (v : string) (id : Z) =>
             match data_variable df lv v t id with
             | Some x => fdiv (x - value_of (CControls, t, v, "constant"))%R (value_of (CLoadings, t, v, f))
             | None => Missing
             end).
      rewrite mapM_map, (mapM_Ok_in _ (fun v => map (h v) ids)).
      + cbn [rbind]. f_equal. f_equal.
        assert (El : length (in_period t rows) = length ids).
        { destruct Hset as (_ & _ & _ & _ & Hdf & Hu & Hids & Hlv). now apply length_in_period. }
        rewrite El, <- (map_map h (fun g => map g ids)), row_means_eq.
        apply map_ext_in. intros id Hid. rewrite !map_map.
        assert (Hh : forall v, In v ms -> is_infinite (h v id) = false /\
            finite (h v id) = option_map (fun x => (x - value_of (CControls, t, v, "constant")) /
                                     value_of (CLoadings, t, v, f))%R (data_variable df lv v t id)).
        { intros v Hv. unfold ms in Hv. apply filter_In in Hv as [Hv Hs]. apply setting_measures in Hv.
          unfold h. destruct (data_variable df lv v t id) as [x|]; [|now split]. unfold fdiv.
          destruct (Req_EM_T (value_of (CLoadings, t, v, f)) 0) as [E|E]; [|now split].
          exfalso. exact (Hnz f v Hf Hv Hs E). }
        assert (Hex : existsb is_infinite (map (fun v => h v id) ms) = false).
        { apply not_true_iff_false. intros Hx. apply existsb_exists in Hx as (x & Hx & Hi).
          apply in_map_iff in Hx as (v & <- & Hv). rewrite (proj1 (Hh v Hv)) in Hi. discriminate. }
        rewrite Hex. unfold score. fold ms. f_equal. apply map_ext_in. intros v Hv. now apply Hh.
      + intros v Hv. unfold ms in Hv. apply filter_In in Hv as [Hv _]. apply setting_measures in Hv.
        cbn [fst snd].
        rewrite (find_row _ _ (CControls, t, v, "constant")).
        * rewrite (find_row _ _ (CLoadings, t, v, f)).
          -- cbn [snd]. f_equal. unfold rescale. rewrite map_map. reflexivity.
          -- apply HL. split; [|split; reflexivity]. apply param_row, par_loading; [now left|].
             exact (measures_latent md t f v Hv).
          -- intros [[[[c k] a] b] x] Hr HP. apply HL in Hr as (_ & Hk & Hc). cbn in *.
             apply andb_true_iff in HP as [HP1 HP2]. apply String.eqb_eq in HP1, HP2. now subst.
          -- cbn. now rewrite !String.eqb_refl.
          -- intros row Hr. now apply HL in Hr.
        * apply filter_In. split; [|apply String.eqb_refl].
          apply HC. split; [|split; reflexivity]. apply param_row, par_control; [|now left].
          now apply (Heqn f).
        * intros [[[[c k] a] b] x] Hr HP. apply filter_In in Hr as [Hr Hb].
          apply HC in Hr as (_ & Hk & Hc). cbn in *. apply String.eqb_eq in HP, Hb. now subst.
        * cbn. now rewrite String.eqb_refl.
        * intros row Hr. apply filter_In in Hr as [Hr _]. now apply HC in Hr.
  Qed.
End Single.
