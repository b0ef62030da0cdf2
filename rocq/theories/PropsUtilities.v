(** Properties C52 - C56: utilities that change specifications and tables of parameters. *)
Require Import String Ascii Arith ZArith QArith Bool List Lia.
From Verif Require Import PyBase ListFacts StringFacts ModelSpec ProcessModel CheckModel SpecModel
  ProcessModelFacts AcceptFacts ParamsIndex SpecIndex IndexFacts ParseParams ParamsVec ExampleModels PropsSpec
  PropsParse Utilities SpecUtilities UtilitiesFacts.
Import ListNotations.
Open Scope string_scope.
Open Scope list_scope.
Open Scope nat_scope.

(** * C52 *)

(** [params'] are the parameters of the reduced model, in the order of its index, with
    the rows they had before; all are parameters of the full model. *)
Definition reduction (md : model_dict) (params : pframe) (md' : model_dict) (params' : pframe) : Prop :=
  (forall lb, is_param md' lb -> is_param md lb) /\
  part_of md' params params' /\
  exists p', process_model md' = Ok p' /\ pf_index params' = params_index_of p'.

Lemma reduce_params_accepts params md params' :
  reduce_params params md = Ok params' -> exists p, process_model md = Ok p.
Proof.
  unfold reduce_params, index_from_model_dict. destruct (process_model md) as [p|]; [eauto|discriminate].
Qed.

Lemma reduction_intro md md' p params params' :
  wf_dicts md -> process_model md = Ok p -> wf_dicts md' -> nested md' md -> covers md params ->
  reduce_params params md' = Ok params' -> reduction md params md' params'.
Proof.
  intros Hwf Hp Hwf' Hne Hc H. destruct (reduce_params_accepts _ _ _ H) as [p' Hp'].
  destruct (reduce_params_nested md md' p params Hwf Hp Hwf' Hne Hc (ex_intro _ p' Hp')) as (ps & E & Hpart & Hidx).
  rewrite E in H. injection H as <-. split; [|split].
  - intros lb. destruct (p_dims_eq md p Hp) as (_ & _ & _ & _ & Hn & _). now apply (nested_is_param md' md _ lb Hne Hn).
  - exact Hpart.
  - exists p'. auto.
Qed.

Lemma unique_periods md n m : has_n_periods md n -> has_n_periods md m -> n = m.
Proof.
  intros [(f & fs & Hf & <-) Hn] [(g & gs & Hg & <-) Hm]. specialize (Hm f fs Hf). specialize (Hn g gs Hg). lia.
Qed.

(** Removing factors: succeeds iff at least one remaining factor has measurements and an
    anchoring section, if there is one, has outcomes. *)
Theorem C52_remove_factors :
  forall factors md p params,
    wf_dicts md -> process_model md = Ok p -> covers md params ->
    ((exists out, remove_factors factors md (Some params) = Ok out) <->
     (exists f fs, In (f, fs) (md_factors md) /\ ~ named factors f /\ fs_measurements fs <> []) /\
     (forall a, md_anchoring md = Some a -> as_outcomes a <> None)) /\
    (forall md' out, remove_factors factors md (Some params) = Ok (md', out) ->
       remove_factors factors md None = Ok (md', None) /\
       exists params', out = Some params' /\ reduction md params md' params').
Proof.
  intros factors md p params Hwf Hp Hc.
  destruct (p_dims_eq md p Hp) as (_ & _ & _ & _ & Hn & _).
  split; [split|].
  - intros [out H]. apply remove_factors_unfold in H as (anch & d & Ha & Hd & H).
    set (md1 := without_factors factors md anch) in *.
    pose proof (get_dimensions_periods _ _ Hd) as Hn1. split.
    + cbn [with_params] in H. apply rbind_ok in H as (params' & H & _).
      apply reduce_params_accepts in H as [p' Hp'].
      destruct (p_dims_eq _ _ Hp') as (_ & _ & _ & _ & Hn' & H1).
      pose proof (unique_periods _ _ _ Hn' (short_model_periods md1 (n_periods d) _ Hn1)) as E.
      destruct Hn1 as [(f & fs & Hin & Hl) _]. apply without_factors_In in Hin as [Hin Hnot].
      exists f, fs. split; [exact Hin|]. split; [exact Hnot|]. intros E0. rewrite E0 in Hl. simpl in Hl. lia.
    + intros a E. unfold reduced_anchoring in Ha. rewrite E in Ha. destruct Ha as (o & l & Ho & _). congruence.
  - intros [(f & fs & Hin & Hnot & Hms) Hanch].
    assert (Ha : exists anch, reduced_anchoring factors (md_anchoring md) anch).
    { unfold reduced_anchoring. destruct (md_anchoring md) as [a|]; [|eauto].
      specialize (Hanch a eq_refl). destruct (as_outcomes a) as [outs|]; [|congruence].
      destruct (remove_from_dict outs factors) as [|x l] eqn:E.
      - exists None, outs, []. split; [reflexivity|]. split; [rewrite <- E; apply remove_from_dict_kept|]. now left.
      - eexists _, outs, (x :: l). split; [reflexivity|]. split; [rewrite <- E; apply remove_from_dict_kept|].
        right. split; [discriminate|reflexivity]. }
    destruct Ha as [anch Ha]. set (md1 := without_factors factors md anch).
    assert (Hin1 : In (f, fs) (md_factors md1)) by (apply without_factors_In; auto).
    pose proof (proj1 (accepted_iff md Hwf) (ex_intro _ p Hp)) as (Ho & _).
    destruct (get_dimensions_total md1) as [d Hd]; [exact Ho|intros E; rewrite E in Hin1; destruct Hin1|].
    pose proof (get_dimensions_periods _ _ Hd) as Hn1.
    assert (H1 : 1 <= n_periods d).
    { destruct Hn1 as [_ Hle]. specialize (Hle f fs Hin1). destruct (fs_measurements fs); [congruence|simpl in Hle; lia]. }
    pose proof (without_factors_wf factors md anch Ha Hwf) as Hwf1. fold md1 in Hwf1.
    pose proof (nested_without factors md anch Ha) as Hne. fold md1 in Hne.
    pose proof (nested_periods _ _ _ _ Hne Hn1 Hn) as Hle.
    destruct (short_model_accepted md md1 p _ (n_periods d) (n_periods d) Hwf Hp Hn Hwf1) as [p' Hp']; auto; try lia.
    { intros g gs Hg. now apply without_factors_In in Hg. }
    destruct (reduce_params_nested md (short_model md1 (n_periods d)) p params Hwf Hp
                (short_model_wf _ _ Hwf1) (nested_trans _ _ _ (nested_short _ _) Hne) Hc (ex_intro _ p' Hp'))
      as (params' & E & _).
    exists (short_model md1 (n_periods d), Some params'). apply remove_factors_unfold.
    exists anch, d. split; [exact Ha|]. split; [exact Hd|]. cbn [with_params]. fold md1. now rewrite E.
  - intros md' out H. apply remove_factors_unfold in H as (anch & d & Ha & Hd & H).
    cbn [with_params] in H. apply rbind_ok in H as (params' & H & E). injection E as <- <-. split.
    + apply remove_factors_unfold. exists anch, d. auto.
    + exists params'. split; [reflexivity|].
      pose proof (without_factors_wf factors md anch Ha Hwf) as Hwf1.
      apply (reduction_intro _ _ p); auto using short_model_wf.
      exact (nested_trans _ _ _ (nested_short _ _) (nested_without factors md anch Ha)).
Qed.

(** Extracting factors is removing all others. *)
Theorem C52_extract_factors :
  forall factors md p params,
    wf_dicts md -> process_model md = Ok p -> covers md params ->
    ((exists out, extract_factors factors md (Some params) = Ok out) <->
     (exists f fs, In (f, fs) (md_factors md) /\ named factors f /\ fs_measurements fs <> []) /\
     (forall a, md_anchoring md = Some a -> as_outcomes a <> None)) /\
    (forall md' out, extract_factors factors md (Some params) = Ok (md', out) ->
       exists params', out = Some params' /\ reduction md params md' params').
Proof.
  intros factors md p params Hwf Hp Hc. unfold extract_factors.
  set (others := Many (filter (fun f => negb (smem f (as_list factors))) (dkeys (md_factors md)))).
  destruct (C52_remove_factors others md p params Hwf Hp Hc) as [H1 H2]. split.
  - rewrite H1. split; intros [(f & fs & Hin & Hn & Hm) Ha]; (split; [|exact Ha]); exists f, fs;
      (split; [exact Hin|]; split; [|exact Hm]).
    + apply named_smem. destruct (smem f (as_list factors)) eqn:E; [reflexivity|]. exfalso. apply Hn.
      cbn [named others]. apply filter_In. split; [now apply In_dkeys in Hin|now rewrite E].
    + intros H. cbn [named others] in H. apply filter_In in H as [_ H]. apply not_named_smem in H. contradiction.
  - intros md' out H. now apply H2.
Qed.

(** Removing controls: succeeds iff there is a section with controls. *)
Theorem C52_remove_controls :
  forall controls md p params,
    wf_dicts md -> process_model md = Ok p -> covers md params ->
    ((exists out, remove_controls controls md (Some params) = Ok out) <-> md_controls md <> None) /\
    (forall md' out, remove_controls controls md (Some params) = Ok (md', out) ->
       remove_controls controls md None = Ok (md', None) /\
       exists params', out = Some params' /\ reduction md params md' params').
Proof.
  intros controls md p params Hwf Hp Hc. unfold remove_controls.
  destruct (md_controls md) as [cs|] eqn:Ecs.
  2:{ split; [split; [intros [out H]; discriminate|congruence]|]. intros; discriminate. }
  set (md' := mk_md (md_factors md) (md_observed md)
                match remove_from_list cs controls with [] => None | l => Some l end
                (md_stagemap md) (md_anchoring md) (md_options md)).
  assert (Hwf' : wf_dicts md') by exact Hwf.
  assert (Hne : nested md' md).
  { constructor; try reflexivity; try (apply sublist_refl).
    - unfold controls_of. cbn [md_controls md']. rewrite Ecs. intros c Hc'.
      destruct (remove_from_list cs controls) as [|x l] eqn:E; [destruct Hc'|]. rewrite <- E in Hc'.
      now apply remove_from_list_In in Hc'.
    - intros f o H. exact H.
    - intros f fs H. exists fs. split; [exact H|]. split; [|apply incl_refl].
      intros q ms Hq. exists ms. split; [exact Hq|apply incl_refl]. }
  assert (Hacc : exists p', process_model md' = Ok p').
  { apply (accepted_iff md' Hwf'). exact (proj1 (accepted_iff md Hwf) (ex_intro _ p Hp)). }
  destruct (reduce_params_nested md md' p params Hwf Hp Hwf' Hne Hc Hacc) as (params' & E & _).
  cbn [with_params]. rewrite E. cbn [rbind]. split.
  - split; [discriminate|eauto].
  - intros m out H. injection H as <- <-. split; [reflexivity|]. exists params'. split; [reflexivity|].
    now apply (reduction_intro _ _ p).
Qed.


(** Removing measurements always succeeds. *)
Theorem C52_remove_measurements :
  forall measurements md p params,
    wf_dicts md -> process_model md = Ok p -> covers md params ->
    exists md' params', remove_measurements measurements md (Some params) = Ok (md', Some params') /\
      remove_measurements measurements md None = Ok (md', None) /\
      reduction md params md' params'.
Proof.
  intros ms md p params Hwf Hp Hc.
  set (md' := map_factors (reduced_factor ms) md).
  assert (Hwf' : wf_dicts md') by now apply map_factors_wf.
  destruct (reduce_params_nested md md' p params Hwf Hp Hwf' (nested_reduced ms md) Hc (reduced_accepted ms md p Hwf Hp))
    as (params' & E & _).
  exists md', params'. rewrite !remove_measurements_eq. fold md'. cbn [with_params]. rewrite E.
  split; [reflexivity|]. split; [reflexivity|]. exact (reduction_intro _ _ p _ _ Hwf Hp Hwf' (nested_reduced ms md) Hc E).
Qed.

(** Switching to linear transition functions always succeeds. *)
Theorem C52_switch_translog_to_linear :
  forall md p params,
    wf_dicts md -> process_model md = Ok p -> covers md params ->
    exists md' params', switch_translog_to_linear md (Some params) = Ok (md', Some params') /\
      switch_translog_to_linear md None = Ok (md', None) /\
      reduction md params md' params'.
Proof.
  intros md p params Hwf Hp Hc.
  set (md' := map_factors (switch_transition "translog" "linear") md).
  assert (Hwf' : wf_dicts md') by now apply map_factors_wf.
  destruct (reduce_params_nested md md' p params Hwf Hp Hwf' (nested_translog_to_linear md) Hc)
    as (params' & E & _).
  { apply (switch_accepted _ _ md p); [simpl; tauto|assumption|assumption]. }
  exists md', params'. unfold switch_translog_to_linear. fold md'. cbn [with_params]. rewrite E.
  split; [reflexivity|]. split; [reflexivity|].
  exact (reduction_intro _ _ p _ _ Hwf Hp Hwf' (nested_translog_to_linear md) Hc E).
Qed.

(** * C53 *)

Lemma row_value_unique {A} (rows : list (label * A)) lb x y :
  NoDup (map fst rows) -> In (lb, x) rows -> In (lb, y) rows -> x = y.
Proof.
  intros Hnd Hx Hy. apply (row_value_In rows lb x Hnd) in Hx. apply (row_value_In rows lb y Hnd) in Hy. congruence.
Qed.

Lemma reindex_rows_ok rows target :
  NoDup (map fst rows) ->
  exists out, reindex_rows rows target = Ok out /\ map fst out = target /\
    forall lb cells, In (lb, cells) out ->
      (forall old, In (lb, old) rows -> cells = old) /\
      (~ In lb (map fst rows) -> cells = fun _ => PNan).
Proof.
  intros Hnd. unfold reindex_rows. destruct (labels_eqb (map fst rows) target) eqn:E.
  - apply labels_eqb_spec in E. exists rows. split; [reflexivity|]. split; [exact E|].
    intros lb cells Hin. split.
    + intros old Hold. exact (row_value_unique rows lb _ _ Hnd Hin Hold).
    + intros Hno. exfalso. apply Hno. now apply (in_map fst) in Hin.
  - rewrite (proj2 (has_dup_NoDup _) Hnd). eexists. split; [reflexivity|].
    split; [rewrite map_map; apply map_id|].
    intros lb cells Hin. apply in_map_iff in Hin as (lb' & [= -> <-] & Hin). split.
    + intros old Hold. now rewrite (proj2 (row_value_In rows lb old Hnd) Hold).
    + intros Hno. destruct (row_value rows lb) as [x|] eqn:Ex; [|reflexivity].
      apply (row_value_In rows lb x Hnd) in Ex. exfalso. apply Hno. now apply (in_map fst) in Ex.
Qed.

Lemma fillna_column_index column fill rows : map fst (fillna_column column fill rows) = map fst rows.
Proof. unfold fillna_column. rewrite map_map. reflexivity. Qed.

Lemma fillna_column_In column fill rows lb cells' :
  In (lb, cells') (fillna_column column fill rows) ->
  exists cells, In (lb, cells) rows /\
    (forall c, c <> column -> cells' c = cells c) /\
    cells' column = match cells column with PNan => fill | x => x end.
Proof.
  unfold fillna_column. intros H. apply in_map_iff in H as ([l cells] & [= <- <-] & H). exists cells.
  split; [exact H|]. cbn [snd]. split.
  - intros c Hc. apply String.eqb_neq in Hc. now rewrite Hc.
  - now rewrite String.eqb_refl.
Qed.

Lemma extend_params_ok params md p :
  NoDup (pf_index params) -> In "value" (pf_columns params) -> process_model md = Ok p ->
  exists params', extend_params params md five_percent = Ok params' /\
    pf_index params' = params_index_of p /\ extended params params'.
Proof.
  intros Hnd Hv Hp. unfold extend_params, index_from_model_dict. rewrite Hp. cbn [rbind].
  destruct (reindex_rows_ok (pf_rows params) (params_index_of p) Hnd) as (rows & E & Em & Hrows).
  rewrite E. cbn [rbind]. rewrite (proj2 (smem_In _ _) Hv). cbn [negb]. eexists. split; [reflexivity|].
  set (r1 := fillna_column "value" (PNum five_percent) rows).
  set (r2 := if smem "lower_bound" (pf_columns params) then fillna_column "lower_bound" PNegInf r1 else r1).
  set (r3 := if smem "upper_bound" (pf_columns params) then fillna_column "upper_bound" PPosInf r2 else r2).
  assert (Hr : map fst r3 = map fst rows).
  { unfold r3, r2, r1. destruct (smem "upper_bound" _), (smem "lower_bound" _); now rewrite !fillna_column_index. }
  split; [unfold pf_index; cbn [pf_rows]; now rewrite Hr|].
  split; [reflexivity|]. intros lb cells' column Hrow Hcol. unfold row_of in Hrow. cbn [pf_rows] in Hrow.
  assert (G : exists cells, In (lb, cells) rows /\
            cells' column = match cells column with PNan => default_cell column | x => x end).
  { assert (G1 : forall lb c, In (lb, c) r1 -> exists cells, In (lb, cells) rows /\
              (forall k, k <> "value" -> c k = cells k) /\
              c "value" = match cells "value" with PNan => PNum five_percent | x => x end).
    { intros l c H. exact (fillna_column_In _ _ _ _ _ H). }
    assert (G2 : forall lb c, In (lb, c) r2 -> exists cells, In (lb, cells) r1 /\
              (forall k, k <> "lower_bound" -> c k = cells k) /\
              (In "lower_bound" (pf_columns params) ->
               c "lower_bound" = match cells "lower_bound" with PNan => PNegInf | x => x end)).
    { intros l c H. unfold r2 in H. destruct (smem "lower_bound" (pf_columns params)) eqn:Es.
      - destruct (fillna_column_In _ _ _ _ _ H) as (cells & H1 & H2 & H3). exists cells. auto.
      - exists c. split; [exact H|]. split; [reflexivity|]. intros Hin. apply smem_In in Hin. congruence. }
    assert (G3 : forall lb c, In (lb, c) r3 -> exists cells, In (lb, cells) r2 /\
              (forall k, k <> "upper_bound" -> c k = cells k) /\
              (In "upper_bound" (pf_columns params) ->
               c "upper_bound" = match cells "upper_bound" with PNan => PPosInf | x => x end)).
    { intros l c H. unfold r3 in H. destruct (smem "upper_bound" (pf_columns params)) eqn:Es.
      - destruct (fillna_column_In _ _ _ _ _ H) as (cells & H1 & H2 & H3). exists cells. auto.
      - exists c. split; [exact H|]. split; [reflexivity|]. intros Hin. apply smem_In in Hin. congruence. }
    destruct (G3 _ _ Hrow) as (c2 & I2 & A2 & B2). destruct (G2 _ _ I2) as (c1 & I1 & A1 & B1).
    destruct (G1 _ _ I1) as (c0 & I0 & A0 & B0). exists c0. split; [exact I0|]. unfold default_cell.
    destruct (String.eqb_spec column "value") as [->|N1].
    { rewrite A2, A1 by discriminate. exact B0. }
    destruct (String.eqb_spec column "lower_bound") as [->|N2].
    { rewrite A2, (B1 Hcol), A0 by discriminate. reflexivity. }
    destruct (String.eqb_spec column "upper_bound") as [->|N3].
    { rewrite (B2 Hcol), A1, A0 by discriminate. reflexivity. }
    rewrite A2, A1, A0 by assumption. destruct (c0 column); reflexivity. }
  destruct G as (cells & Hin & Ec). destruct (Hrows lb cells Hin) as [Ho Hn]. split.
  - intros old Hold. rewrite <- (Ho old Hold). split.
    + intros H. rewrite Ec. destruct (cells column); congruence.
    + intros H. now rewrite Ec, H.
  - intros Hno. rewrite Ec, (Hn Hno). reflexivity.
Qed.

(** Switching to translog: values are kept unless they are missing, new parameters get
    the default. *)
Theorem C53_extended_partial :
  forall md p params,
    wf_dicts md -> process_model md = Ok p ->
    NoDup (pf_index params) -> In "value" (pf_columns params) ->
    exists md' p' params', switch_linear_to_translog md (Some params) = Ok (md', Some params') /\
      process_model md' = Ok p' /\ pf_index params' = params_index_of p' /\ extended params params' /\
      (forall lb, is_param md lb -> is_param md' lb).
Proof.
  intros md p params Hwf Hp Hnd Hv.
  set (md' := map_factors (switch_transition "linear" "translog") md).
  destruct (switch_accepted "linear" "translog" md p) as [p' Hp']; [simpl; tauto|assumption|assumption|].
  fold md' in Hp'. destruct (extend_params_ok params md' p' Hnd Hv Hp') as (params' & E & Hi & He).
  exists md', p', params'. unfold switch_linear_to_translog. fold md'. cbn [with_params]. rewrite E. cbn [rbind].
  split; [reflexivity|]. split; [exact Hp'|]. split; [exact Hi|]. split; [exact He|].
  intros lb. destruct (p_dims_eq md' p' Hp') as (_ & _ & _ & _ & Hn & _).
  apply (nested_is_param md md' _ lb (nested_linear_to_translog md) Hn).
Qed.

(** Reducing the number of periods to at least one: all parameters of the reduced model
    are parameters of the full model, and their values are kept unless they are missing. *)
Theorem C53_reduced_periods_partial :
  forall md p params k,
    wf_dicts md -> process_model md = Ok p -> covers md params -> In "value" (pf_columns params) -> 1 <= k ->
    exists md' p' params', reduce_n_periods md (Z.of_nat k) (Some params) = Ok (md', Some params') /\
      reduce_n_periods md (Z.of_nat k) None = Ok (md', None) /\
      process_model md' = Ok p' /\ pf_index params' = params_index_of p' /\ extended params params' /\
      (forall lb, is_param md' lb -> is_param md lb /\ In lb (pf_index params)) /\
      (forall n, has_n_periods md n -> has_n_periods md' (Nat.min k n)).
Proof.
  intros md p params k Hwf Hp Hc Hv Hk. destruct (p_dims_eq md p Hp) as (_ & _ & _ & _ & Hn & Hn1).
  destruct (short_model_accepted md md p _ (n_periods (p_dims p)) k Hwf Hp Hn Hwf) as [p' Hp']; auto.
  destruct (extend_params_ok params (short_model md k) p' (proj1 Hc) Hv Hp') as (params' & E & Hi & He).
  exists (short_model md k), p', params'. rewrite !reduce_n_periods_eq. cbn [with_params]. rewrite E. cbn [rbind].
  split; [reflexivity|]. split; [reflexivity|]. split; [exact Hp'|]. split; [exact Hi|]. split; [exact He|]. split.
  - intros lb Hlb. pose proof (nested_is_param _ md _ lb (nested_short md k) Hn Hlb) as H. split; [exact H|].
    now apply Hc.
  - intros n H. now apply short_model_periods.
Qed.

(** There is no model without periods. *)
Theorem C53_zero_periods :
  forall md params, wf_dicts md -> exists e, reduce_n_periods md 0 (Some params) = Err e.
Proof.
  intros md params Hwf. change 0%Z with (Z.of_nat 0). rewrite reduce_n_periods_eq. cbn [with_params].
  unfold extend_params, index_from_model_dict. destruct (process_model (short_model md 0)) as [p|e] eqn:E; [|simpl; eauto].
  exfalso. destruct (p_dims_eq _ _ E) as (_ & _ & _ & _ & [(f & fs & Hin & Hl) _] & H1).
  apply short_model_In in Hin as (fs0 & _ & ->). cbn in Hl. lia.
Qed.

(** Refuted: a missing value is replaced although the parameter is not new, even if the
    model does not change. *)
Definition missing_frame (index : list label) : pframe :=
  mk_pframe ["value"] (map (fun lb => (lb, fun _ => PNan)) index).

Lemma missing_frame_row index lb : In lb index -> row_of (missing_frame index) lb (fun _ => PNan).
Proof. intros H. unfold row_of, missing_frame. cbn [pf_rows]. apply in_map_iff. exists lb. auto. Qed.

Lemma missing_frame_index index : pf_index (missing_frame index) = index.
Proof. unfold pf_index, missing_frame. cbn [pf_rows]. now rewrite map_map, map_id. Qed.

Lemma extended_missing params params' lb cells' :
  extended params params' -> In "value" (pf_columns params) ->
  row_of params lb (fun _ => PNan) -> row_of params' lb cells' -> cells' "value" = PNum five_percent.
Proof.
  intros [_ He] Hv H0 H. destruct (He lb cells' "value" H Hv) as [H1 _]. destruct (H1 _ H0) as [_ H2]. now apply H2.
Qed.

Theorem C53_refuted :
  exists md p params lb cells cells' params',
    wf_dicts md /\ process_model md = Ok p /\ covers md params /\
    reduce_n_periods md 3 (Some params) = Ok (md, Some params') /\
    row_of params lb cells /\ row_of params' lb cells' /\
    cells "value" = PNan /\ cells' "value" = PNum five_percent.
Proof.
  assert (Hc : covers small_model (missing_frame (params_index_of small_p))).
  { split.
    - rewrite missing_frame_index.
      apply (NoDup_params_index small_model); [exact small_model_wf|exact small_model_good_names|exact small_model_accepted].
    - intros lb Hlb. rewrite missing_frame_index.
      exact (proj2 (In_params_index small_model small_p lb small_model_wf small_model_accepted) Hlb). }
  destruct (C53_reduced_periods_partial small_model small_p (missing_frame (params_index_of small_p)) 3
              small_model_wf small_model_accepted Hc) as (md' & p' & params' & E & E0 & Hp' & Hi & He & _ & _);
    [now left|lia|].
  assert (md' = small_model) as ->. { vm_compute in E0. injection E0 as <-. reflexivity. }
  assert (p' = small_p) as ->. { rewrite small_model_accepted in Hp'. now injection Hp'. }
  set (lb := (CShockSds, 0, "cog", "-") : label).
  assert (Hin : In lb (params_index_of small_p)).
  { apply (In_params_index small_model small_p lb small_model_wf small_model_accepted).
    apply (par_shock_sd small_model 0 "cog" 3 small_model_periods); [lia|now left]. }
  assert (Hin' : In lb (pf_index params')) by (rewrite Hi; exact Hin).
  unfold pf_index in Hin'. apply in_map_iff in Hin' as ([l cells'] & El & Hrow). cbn [fst] in El. subst l.
  exists small_model, small_p, (missing_frame (params_index_of small_p)), lb, (fun _ => PNan), cells', params'.
  assert (Hrow0 : row_of (missing_frame (params_index_of small_p)) lb (fun _ => PNan))
    by exact (missing_frame_row _ lb Hin).
  split; [exact small_model_wf|]. split; [exact small_model_accepted|]. split; [exact Hc|]. split; [exact E|].
  split; [exact Hrow0|]. split; [exact Hrow|]. split; [reflexivity|].
  exact (extended_missing _ params' lb cells' He (or_introl eq_refl) Hrow0 Hrow).
Qed.

(** * C54 *)

Lemma kept_whole {A} (l : list A) : kept (fun _ => True) l l.
Proof. induction l; constructor; auto. Qed.

Lemma firstn_rest_empty {A} (l : list (list A)) k :
  (forall i x, k <= i -> nth_error l i = Some x -> x = []) -> same_up_to_empty l (firstn k l).
Proof.
  revert k. induction l as [|x l IH]; intros k H.
  - exists 0. now rewrite firstn_nil.
  - destruct k as [|k].
    + exists (S (length l)). simpl. f_equal; [apply (H 0 x); [lia|reflexivity]|].
      destruct (IH 0) as [m Em]; [intros i y _ Hy; apply (H (S i) y); [lia|exact Hy]|].
      simpl in Em. rewrite Em at 1. f_equal. rewrite Em, repeat_length. reflexivity.
    + destruct (IH k) as [m Em]; [intros i y Hi Hy; apply (H (S i) y); [lia|exact Hy]|].
      exists m. simpl. now rewrite <- Em.
Qed.

(** Removing factors: the others stay in their order, with all measurements and
    normalizations; the anchoring section and the stages are reduced accordingly. *)
Theorem C54_remove_factors :
  forall factors md p md',
    wf_dicts md -> process_model md = Ok p ->
    remove_factors factors md None = Ok (md', None) ->
    (forall f, In f (latent_of md') -> ~ named factors f) /\
    (exists left, kept (fun kv => ~ named factors (fst kv)) (md_factors md) left /\
       Forall2 (fun kv kv' => fst kv' = fst kv /\ same_factor (snd kv) (snd kv')) left (md_factors md')) /\
    reduced_anchoring factors (md_anchoring md) (md_anchoring md') /\
    md_observed md' = md_observed md /\ md_controls md' = md_controls md /\ md_options md' = md_options md /\
    exists n', has_n_periods md' n' /\
      (1 <= n' -> md_stagemap md' = option_map (firstn (n' - 1)) (md_stagemap md)).
Proof.
  intros factors md p md' Hwf Hp H.
  apply remove_factors_unfold in H as (anch & d & Ha & Hd & H). cbn [with_params] in H. injection H as <-.
  set (md1 := without_factors factors md anch) in *. set (n1 := n_periods d).
  pose proof (get_dimensions_periods _ _ Hd) as Hn1. fold n1 in Hn1.
  pose proof (proj1 (accepted_iff md Hwf) (ex_intro _ p Hp)) as (_ & n & Hn & _ & (Hlo & Hic & _) & _).
  split; [|split; [|split; [exact Ha|split; [reflexivity|split; [reflexivity|split; [reflexivity|]]]]]].
  - intros f Hf. rewrite short_model_latent in Hf. unfold latent_of in Hf.
    apply in_map_iff in Hf as ([g gs] & <- & Hg). now apply without_factors_In in Hg.
  - exists (remove_from_dict (md_factors md) factors). split; [apply remove_from_dict_kept|].
    cbn [md_factors short_model]. change (md_factors md1) with (remove_from_dict (md_factors md) factors).
    assert (Hall : forall f fs, In (f, fs) (remove_from_dict (md_factors md) factors) ->
                     In (f, fs) (md_factors md) /\ length (fs_measurements fs) <= n1).
    { intros f fs Hin. split; [now apply remove_from_dict_In in Hin|]. destruct Hn1 as [_ Hle]. now apply (Hle f). }
    induction (remove_from_dict (md_factors md) factors) as [|[f fs] l IH]; [constructor|].
    simpl. constructor; [|apply IH; intros; apply Hall; now right].
    cbn [fst snd]. split; [reflexivity|]. destruct (Hall f fs (or_introl eq_refl)) as [Hin Hlen].
    unfold same_factor, short_factor. cbn [fs_measurements fs_transition fs_norm].
    split; [now apply firstn_all2|]. split; [reflexivity|].
    destruct (fs_norm fs) as [nm|] eqn:Enm; [|exact I]. cbn [option_map map_norms ns_loadings ns_intercepts].
    assert (Hms : forall q v, measures md q f v -> q < n1).
    { intros q v (fs' & ms & Hin' & Hq & _). destruct Hwf as [Hnd _].
      pose proof (In_dget _ _ _ Hnd Hin) as G1. pose proof (In_dget _ _ _ Hnd Hin') as G2.
      assert (fs' = fs) as -> by congruence.
      assert (q < length (fs_measurements fs)) by (apply nth_error_Some; congruence). lia. }
    split.
    + destruct (ns_loadings nm) as [lds|] eqn:El; [|exact I]. simpl. apply firstn_rest_empty.
      intros i x Hi Hx. destruct x as [|[v q] x]; [reflexivity|]. exfalso.
      destruct (Hlo i f v q) as [Hm _].
      { exists fs, nm, lds, ((v, q) :: x). repeat split; auto. now left. }
      apply Hms in Hm. lia.
    + destruct (ns_intercepts nm) as [lds|] eqn:El; [|exact I]. simpl. apply firstn_rest_empty.
      intros i x Hi Hx. destruct x as [|[v q] x]; [reflexivity|]. exfalso.
      assert (Hm : measures md i f v).
      { apply (Hic i f v q). exists fs, nm, lds, ((v, q) :: x). repeat split; auto. now left. }
      apply Hms in Hm. lia.
  - exists n1. split.
    + pose proof (short_model_periods md1 n1 n1 Hn1) as G. rewrite Nat.min_id in G. exact G.
    + intros H1. cbn [md_stagemap short_model]. change (md_stagemap md1) with (md_stagemap md).
      destruct (md_stagemap md) as [sm|]; [|reflexivity]. simpl. f_equal.
      replace (Z.of_nat n1 - 1)%Z with (Z.of_nat (n1 - 1)) by lia. apply shorten_nonneg.
Qed.

(** Extracting factors leaves exactly those. *)
Theorem C54_extract_factors :
  forall factors md p md',
    wf_dicts md -> process_model md = Ok p ->
    extract_factors factors md None = Ok (md', None) ->
    kept (named factors) (latent_of md) (latent_of md').
Proof.
  intros factors md p md' Hwf Hp H. unfold extract_factors in H.
  set (others := Many (filter (fun f => negb (smem f (as_list factors))) (dkeys (md_factors md)))) in *.
  destruct (C54_remove_factors others md p md' Hwf Hp H) as (_ & (left & Hk & Hf) & _).
  assert (E : latent_of md' = map fst left).
  { unfold latent_of. clear - Hf. induction Hf as [|x y l l' [E _] Hf IH]; [reflexivity|]. simpl. now rewrite E, IH. }
  rewrite E. unfold latent_of.
  assert (Heq : forall kv, In kv (md_factors md) -> ~ named others (fst kv) <-> named factors (fst kv)).
  { intros [f fs] Hin. cbn [fst]. split.
    - intros Hno. apply named_smem. destruct (smem f (as_list factors)) eqn:Es; [reflexivity|]. exfalso. apply Hno.
      cbn [named others]. apply filter_In. split; [now apply In_dkeys in Hin|now rewrite Es].
    - intros Hy Ho. cbn [named others] in Ho. apply filter_In in Ho as [_ Ho]. apply not_named_smem in Ho. contradiction. }
  clearbody others. clear - Hk Heq. induction Hk as [|x l l' Hx Hk IH|x l l' Hx Hk IH]; simpl; [constructor| |].
  - constructor; [apply Heq; [now left|exact Hx]|]. apply IH. intros; apply Heq; now right.
  - constructor; [intros Hn; apply Hx, Heq; [now left|exact Hn]|]. apply IH. intros; apply Heq; now right.
Qed.

(** Removing measurements. *)
Theorem C54_remove_measurements :
  forall measurements md md',
    remove_measurements measurements md None = Ok (md', None) ->
    (forall p f v, measures md' p f v <-> measures md p f v /\ ~ named measurements v) /\
    (forall p f v q, normalized_loading md' p f v q <-> normalized_loading md p f v q /\ ~ named measurements v) /\
    (forall p f v q, normalized_intercept md' p f v q <-> normalized_intercept md p f v q /\ ~ named measurements v) /\
    same_but_factors (without_measurements measurements) md md'.
Proof.
  intros ms md md' H. rewrite remove_measurements_eq in H. cbn [with_params] in H. injection H as <-.
  split; [|split; [|split; [|split; [|repeat split; reflexivity]]]].
  - intros. apply reduced_measures.
  - intros. apply reduced_normalized_loading.
  - intros. apply reduced_normalized_intercept.
  - cbn [md_factors map_factors]. induction (md_factors md) as [|[f fs] l IH]; [constructor|].
    simpl. constructor; [|exact IH]. cbn [fst snd]. split; [reflexivity|].
    unfold without_measurements, reduced_factor. cbn [fs_measurements fs_transition fs_norm].
    assert (G1 : forall ls, Forall2 (kept (fun v => ~ named ms v)) ls (map (fun m => remove_from_list m ms) ls)).
    { induction ls; simpl; constructor; auto using remove_from_list_kept. }
    assert (G2 : forall ls : list (dict Q), Forall2 (kept (fun vq => ~ named ms (fst vq))) ls (remove_from_normalizations ms ls)).
    { induction ls; simpl; constructor; auto using (@remove_from_dict_kept Q). }
    split; [apply G1|]. split; [reflexivity|]. destruct (fs_norm fs) as [nm|]; [|exact I].
    cbn [option_map map_norms ns_loadings ns_intercepts].
    split; [destruct (ns_loadings nm)|destruct (ns_intercepts nm)]; simpl; auto.
Qed.

(** There is a warning iff a normalized measurement is removed. *)
Theorem C54_warning :
  forall measurements md,
    remove_measurements_warns measurements md = true <->
    exists p f v q, (normalized_loading md p f v q \/ normalized_intercept md p f v q) /\ named measurements v.
Proof.
  intros ms md.
  assert (G : forall l : list (dict Q), warns_normalized ms l = true <->
             exists p d v q, nth_error l p = Some d /\ In (v, q) d /\ named ms v).
  { intros l. unfold warns_normalized. rewrite existsb_exists. split.
    - intros (d & Hd & H). apply In_nth_error in Hd as [p Hd]. exists p, d.
      assert (Hx : exists x, In x d /\ named ms (fst x)).
      { clear Hd. induction d as [|x d IH]; [discriminate|]. unfold remove_from_dict in *. cbn [filter] in H.
        destruct (negb (smem (fst x) (as_list ms))) eqn:E.
        - destruct IH as (y & Hy & Hn); [exact H|]. exists y. split; [now right|exact Hn].
        - exists x. split; [now left|]. apply named_smem. now apply negb_false_iff. }
      destruct Hx as ([v q] & Hin & Hn). exists v, q. auto.
    - intros (p & d & v & q & Hd & Hin & Hn). exists d. split; [now apply nth_error_In in Hd|].
      apply negb_true_iff, Nat.eqb_neq. clear Hd.
      assert (Hle : forall e : dict Q, length (remove_from_dict e ms) <= length e).
      { clear. induction e as [|x e IH]; [simpl; lia|]. unfold remove_from_dict in *. cbn [filter].
        destruct (negb _); simpl in *; lia. }
      induction d as [|x d IH]; [destruct Hin|]. unfold remove_from_dict in *. cbn [filter].
      destruct (negb (smem (fst x) (as_list ms))) eqn:E.
      + destruct Hin as [->|Hin]; [apply not_named_smem in E; contradiction|]. simpl. specialize (IH Hin). lia.
      + specialize (Hle d). simpl. unfold remove_from_dict in Hle. lia. }
  unfold remove_measurements_warns. rewrite existsb_exists. split.
  - intros ([f fs] & Hin & H). cbn [snd] in H. apply orb_true_iff in H as [H|H]; apply G in H as (p & d & v & q & Hd & Hv & Hn);
      exists p, f, v, q; (split; [|exact Hn]); [left|right]; destruct (fs_norm fs) as [nm|] eqn:Enm; simpl in Hd;
      try (destruct p; discriminate).
    + destruct (ns_loadings nm) as [l|] eqn:El; [|destruct p; discriminate]. exists fs, nm, l, d. auto.
    + destruct (ns_intercepts nm) as [l|] eqn:El; [|destruct p; discriminate]. exists fs, nm, l, d. auto.
  - intros (p & f & v & q & [H|H] & Hn); destruct H as (fs & nm & l & d & Hin & Enm & El & Hd & Hv);
      exists (f, fs); (split; [exact Hin|]); cbn [snd]; rewrite Enm; simpl; rewrite El; simpl; apply orb_true_iff;
      [left|right]; apply G; exists p, d, v, q; auto.
Qed.

(** Removing controls. *)
Theorem C54_remove_controls :
  forall controls md md',
    remove_controls controls md None = Ok (md', None) ->
    (exists cs, md_controls md = Some cs /\ kept_section (fun c => ~ named controls c) cs (md_controls md')) /\
    md_factors md' = md_factors md /\ md_observed md' = md_observed md /\ md_stagemap md' = md_stagemap md /\
    md_anchoring md' = md_anchoring md /\ md_options md' = md_options md.
Proof.
  intros controls md md' H. unfold remove_controls in H. destruct (md_controls md) as [cs|]; [|discriminate].
  cbn [with_params] in H. injection H as <-. cbn [md_controls md_factors md_observed md_stagemap md_anchoring md_options].
  split; [|repeat split; reflexivity]. exists cs. split; [reflexivity|].
  exists (remove_from_list cs controls). split; [apply remove_from_list_kept|].
  destruct (remove_from_list cs controls); [now left|right]. split; [discriminate|reflexivity].
Qed.

(** Reducing the number of periods keeps the first ones. *)
Theorem C54_reduce_n_periods :
  forall md md' k, 1 <= k ->
    reduce_n_periods md (Z.of_nat k) None = Ok (md', None) ->
    Forall2 (fun kv kv' => fst kv' = fst kv /\ first_periods k (snd kv) (snd kv')) (md_factors md) (md_factors md') /\
    md_stagemap md' = option_map (firstn (k - 1)) (md_stagemap md) /\
    md_observed md' = md_observed md /\ md_controls md' = md_controls md /\
    md_anchoring md' = md_anchoring md /\ md_options md' = md_options md.
Proof.
  intros md md' k Hk H. rewrite reduce_n_periods_eq in H. cbn [with_params] in H. injection H as <-.
  split; [|split; [|repeat split; reflexivity]].
  - cbn [md_factors short_model]. induction (md_factors md) as [|[f fs] l IH]; [constructor|].
    simpl. constructor; [|exact IH]. cbn [fst snd]. split; [reflexivity|].
    split; [reflexivity|]. split; [reflexivity|]. cbn [fs_norm short_factor]. destruct (fs_norm fs); [|exact I].
    split; reflexivity.
  - cbn [md_stagemap short_model]. destruct (md_stagemap md) as [sm|]; [|reflexivity]. simpl. f_equal.
    replace (Z.of_nat k - 1)%Z with (Z.of_nat (k - 1)) by lia. apply shorten_nonneg.
Qed.

(** * C55 *)

Lemma switch_transition_switched old new fs : switched old new fs (switch_transition old new fs).
Proof.
  unfold switched, switch_transition. cbn [fs_measurements fs_norm fs_transition].
  split; [reflexivity|]. split; [reflexivity|]. split.
  - intros ->. now rewrite String.eqb_refl.
  - intros H. destruct (fs_transition fs) as [s| |]; try reflexivity.
    destruct (String.eqb_spec s old) as [->|]; [congruence|reflexivity].
Qed.

Lemma switch_same_but_factors old new md :
  same_but_factors (switched old new) md (map_factors (switch_transition old new) md).
Proof.
  split; [|repeat split; reflexivity]. cbn [md_factors map_factors].
  induction (md_factors md) as [|[f fs] l IH]; simpl; constructor; auto.
  cbn [fst snd]. split; [reflexivity|apply switch_transition_switched].
Qed.

(** A negative number of periods drops periods at the end, like in slices of lists, but one
    more entry of the stagemap than periods. *)
Theorem C54_negative_periods :
  forall md k, 1 <= k ->
    exists md', reduce_n_periods md (- Z.of_nat k) None = Ok (md', None) /\
      Forall2 (fun kv kv' => fst kv' = fst kv /\
                 fs_measurements (snd kv') =
                   firstn (length (fs_measurements (snd kv)) - k) (fs_measurements (snd kv)))
        (md_factors md) (md_factors md') /\
      (forall sm, md_stagemap md = Some sm -> md_stagemap md' = Some (firstn (length sm - (k + 1)) sm)).
Proof.
  intros md k Hk.
  assert (G : forall A (l : list A) j, 1 <= j ->
            shorten_if_necessary l (- Z.of_nat j) = firstn (length l - j) l).
  { intros A l j Hj. unfold shorten_if_necessary, slice_to.
    destruct (Z.ltb_spec (- Z.of_nat j) (Z.of_nat (length l))); [|lia].
    destruct (Z.leb_spec 0 (- Z.of_nat j)); [lia|]. f_equal. lia. }
  eexists. split; [reflexivity|]. cbn [md_factors md_stagemap map_factors]. split.
  - induction (md_factors md) as [|[f fs] l IH]; [constructor|]. simpl. constructor; [|exact IH].
    cbn [fst snd fs_measurements]. split; [reflexivity|]. apply G; lia.
  - intros sm ->. cbn [option_map]. f_equal. replace (- Z.of_nat k - 1)%Z with (- Z.of_nat (k + 1))%Z by lia.
    apply G; lia.
Qed.

(** Exactly the transition functions in question are exchanged. *)
Theorem C55_switch :
  forall md,
    (exists md', switch_linear_to_translog md None = Ok (md', None) /\
       same_but_factors (switched "linear" "translog") md md') /\
    (exists md', switch_translog_to_linear md None = Ok (md', None) /\
       same_but_factors (switched "translog" "linear") md md').
Proof.
  intros md. split; eexists; (split; [reflexivity|apply switch_same_but_factors]).
Qed.

(** Switching to translog and back restores the specification iff it had no translog
    transition function. *)
Theorem C55_round_trip :
  forall md md1 md2,
    switch_linear_to_translog md None = Ok (md1, None) ->
    switch_translog_to_linear md1 None = Ok (md2, None) ->
    md2 = md <-> forall f, ~ has_transition md f (TStr "translog").
Proof.
  intros md md1 md2 H1 H2. cbn in H1, H2. injection H1 as <-. injection H2 as <-.
  set (back fs := switch_transition "translog" "linear" (switch_transition "linear" "translog" fs)).
  assert (Hback : forall fs, back fs = fs <-> fs_transition fs <> TStr "translog").
  { intros [ms tr nm]. unfold back, switch_transition. cbn [fs_measurements fs_transition fs_norm]. split.
    - intros [= H] ->. simpl in H. discriminate.
    - intros H. f_equal. destruct tr as [s| |]; try reflexivity.
      destruct (String.eqb_spec s "linear") as [->|N]; [reflexivity|].
      destruct (String.eqb_spec s "translog") as [->|]; [congruence|reflexivity]. }
  unfold has_transition. destruct md as [factors ob co sm an op]. unfold map_factors.
  cbn [md_factors md_observed md_controls md_stagemap md_anchoring md_options]. rewrite map_map. cbn [fst snd].
  split.
  - intros [= H] f (fs & Hin & Ht). apply (proj1 (Hback fs)); [|exact Ht].
    assert (G : forall l : dict factor_spec, map (fun kv => (fst kv, back (snd kv))) l = l ->
                 forall kv, In kv l -> back (snd kv) = snd kv).
    { clear. induction l as [|[k v] l IH]; simpl; intros E kv; [tauto|]. injection E as E1 E2.
      intros [<-|Hin]; [exact E1|]. now apply IH. }
    exact (G factors H (f, fs) Hin).
  - intros H. f_equal.
    transitivity (map (fun kv : string * factor_spec => kv) factors); [|apply map_id].
    apply map_ext_in. intros [f fs] Hin. cbn [fst snd]. f_equal.
    apply (proj2 (Hback fs)). intros Ht. apply (H f). eauto.
Qed.

Lemma switch_good_names old new md : good_names md -> good_names (map_factors (switch_transition old new) md).
Proof.
  intros (H1 & H2 & H3 & H4 & H5 & H6). unfold good_names. rewrite map_factors_latent.
  repeat (split; [assumption|]). intros f fs n names Hin Ht.
  apply map_factors_In in Hin as (fs0 & Hin & ->). apply (H6 f fs0 n names Hin).
  cbn [fs_transition switch_transition] in Ht. destruct (fs_transition fs0) as [s| |]; try exact Ht.
  destruct (String.eqb s old); discriminate.
Qed.

(** With parameters: the round trip restores a table that belongs to the model, if none of
    its values and bounds are missing. *)
Theorem C55_round_trip_params :
  forall md p params,
    wf_dicts md -> good_names md -> process_model md = Ok p -> pf_index params = params_index_of p ->
    In "value" (pf_columns params) ->
    (forall f, ~ has_transition md f (TStr "translog")) ->
    (forall lb cells c, row_of params lb cells -> In c ["value"; "lower_bound"; "upper_bound"] ->
       In c (pf_columns params) -> cells c <> PNan) ->
    exists md1 params1 params2,
      switch_linear_to_translog md (Some params) = Ok (md1, Some params1) /\
      switch_translog_to_linear md1 (Some params1) = Ok (md, Some params2) /\
      pf_columns params2 = pf_columns params /\ pf_index params2 = pf_index params /\
      forall lb cells cells' c, row_of params lb cells -> row_of params2 lb cells' -> In c (pf_columns params) ->
        cells' c = cells c.
Proof.
  intros md p params Hwf Hg Hp Hidx Hv Hno Hfull.
  assert (Hnd : NoDup (pf_index params)) by (rewrite Hidx; now apply (NoDup_params_index md)).
  destruct (C53_extended_partial md p params Hwf Hp Hnd Hv) as (md1 & p1 & params1 & E1 & Hp1 & Hi1 & [Hcol He] & Hsub).
  assert (Emd1 : switch_linear_to_translog md None = Ok (md1, None)).
  { unfold switch_linear_to_translog in *. cbn [with_params] in *. apply rbind_ok in E1 as (x & _ & E1).
    injection E1 as <- _. reflexivity. }
  assert (Hm1 : md1 = map_factors (switch_transition "linear" "translog") md) by (cbn in Emd1; now injection Emd1).
  assert (Hwf1 : wf_dicts md1) by (rewrite Hm1; now apply map_factors_wf).
  assert (Hg1 : good_names md1) by (rewrite Hm1; now apply switch_good_names).
  assert (Hc1 : covers md1 params1).
  { split; [rewrite Hi1; now apply (NoDup_params_index md1)|]. intros lb Hlb. rewrite Hi1.
    now apply (In_params_index md1). }
  destruct (C52_switch_translog_to_linear md1 p1 params1 Hwf1 Hp1 Hc1) as (md2 & params2 & E2 & E20 & _ & (Hcol2 & _ & Hrow2) & p2 & Hp2 & Hi2).
  pose proof (proj2 (C55_round_trip md md1 md2 Emd1 E20) Hno) as ->.
  assert (p2 = p) as -> by congruence.
  exists md1, params1, params2. split; [exact E1|]. split; [exact E2|]. split; [congruence|]. split; [congruence|].
  intros lb cells cells' c Hrow Hrow' Hc. apply Hrow2 in Hrow'.
  destruct (He lb cells' c Hrow' Hc) as [H _]. destruct (H cells Hrow) as [H1 H2].
  assert (Hdec : cells c = PNan \/ cells c <> PNan) by (destruct (cells c); auto; right; discriminate).
  destruct Hdec as [Hnan|Hnot]; [|now apply H1]. rewrite (H2 Hnan), Hnan. unfold default_cell.
  destruct (String.eqb_spec c "value") as [->|]; [exfalso; apply (Hfull lb cells "value"); simpl; auto|].
  destruct (String.eqb_spec c "lower_bound") as [->|]; [exfalso; apply (Hfull lb cells "lower_bound"); simpl; auto|].
  destruct (String.eqb_spec c "upper_bound") as [->|]; [exfalso; apply (Hfull lb cells "upper_bound"); simpl; auto|].
  reflexivity.
Qed.

(** * C56 *)

Lemma update_values_ok out other :
  In "value" (pf_columns out) -> In "value" (pf_columns other) -> NoDup (pf_index other) ->
  exists out', update_values out other = Ok out' /\ pf_columns out' = pf_columns out /\
    pf_index out' = pf_index out /\
    forall i lb cells cells', nth_error (pf_rows out) i = Some (lb, cells) ->
      nth_error (pf_rows out') i = Some (lb, cells') ->
      (forall c, c <> "value" -> cells' c = cells c) /\
      (forall v, gives other lb v -> cells' "value" = v) /\
      ((forall v, ~ gives other lb v) -> cells' "value" = cells "value").
Proof.
  intros H1 H2 Hnd. unfold update_values. rewrite (proj2 (smem_In _ _) H1), (proj2 (smem_In _ _) H2). cbn [negb].
  destruct (reindex_rows_ok (pf_rows other) (pf_index out) Hnd) as (al & E & Em & Hal). rewrite E. cbn [rbind].
  eexists. split; [reflexivity|]. split; [reflexivity|].
  assert (Hlen : length al = length (pf_rows out)).
  { rewrite <- (map_length fst), Em. unfold pf_index. apply map_length. }
  split.
  - unfold pf_index. cbn [pf_rows]. rewrite map_map. cbn [fst]. rewrite <- (map_map fst fst).
    f_equal. clear - Hlen. revert al Hlen. induction (pf_rows out) as [|r l IH]; intros [|a al] Hlen; try discriminate; [reflexivity|].
    simpl. f_equal. apply IH. now injection Hlen.
  - intros i lb cells cells' Hi Hi'. cbn [pf_rows] in Hi'. rewrite nth_error_map in Hi'.
    destruct (nth_error (combine (pf_rows out) al) i) as [[r a]|] eqn:Ec; [|discriminate].
    cbn [option_map fst snd] in Hi'. injection Hi' as Hl <-.
    assert (Hr : nth_error (pf_rows out) i = Some r /\ nth_error al i = Some a).
    { clear - Ec. revert al i Ec. induction (pf_rows out) as [|x l IH]; intros [|y al] [|i]; simpl; try discriminate.
      - intros [= -> ->]. auto.
      - apply IH. }
    destruct Hr as [Hr Ha]. rewrite Hi in Hr. injection Hr as <-. clear Hl. cbn [fst snd].
    assert (Hlb : fst a = lb).
    { apply (map_nth_error fst) in Ha. rewrite Em in Ha. unfold pf_index in Ha.
      rewrite (map_nth_error fst _ _ Hi) in Ha. now injection Ha. }
    destruct a as [lb' new]. cbn [fst snd] in *. subst lb'.
    destruct (Hal lb new (nth_error_In _ _ Ha)) as [Ho Hn]. split; [|split].
    + intros c Hc. apply String.eqb_neq in Hc. now rewrite Hc.
    + intros v (cells0 & Hrow & Hv & Hnn). rewrite (Ho cells0 Hrow). rewrite String.eqb_refl, Hv.
      destruct v; congruence.
    + intros Hno. rewrite String.eqb_refl. destruct (new "value") eqn:Ev; try reflexivity; exfalso.
      all: assert (Hin : In lb (pf_index other)) by
        (destruct (in_dec (fun a b => match label_eqb a b as x return label_eqb a b = x -> {a = b} + {a <> b} with
                    | true => fun e => left (proj1 (label_eqb_spec a b) e)
                    | false => fun e => right (fun h => eq_ind false (fun b => if b then False else True) I true
                                         (eq_trans (eq_sym e) (proj2 (label_eqb_spec a b) h)))
                    end eq_refl) lb (pf_index other)) as [h|h]; [exact h|];
         rewrite (Hn h) in Ev; discriminate).
      all: unfold pf_index in Hin; apply in_map_iff in Hin as ([l c0] & El & Hin); cbn [fst] in El; subst l;
        rewrite (Ho c0 Hin) in Ev; eapply Hno; exists c0; split; [exact Hin|split; [exact Ev|discriminate]].
Qed.

Lemma gives_dec other lb : NoDup (pf_index other) -> (exists v, gives other lb v) \/ (forall v, ~ gives other lb v).
Proof.
  intros Hnd. destruct (row_value (pf_rows other) lb) as [cells|] eqn:E.
  - apply (row_value_In _ _ _ Hnd) in E.
    assert (Hd : cells "value" = PNan \/ cells "value" <> PNan) by (destruct (cells "value"); auto; right; discriminate).
    destruct Hd as [Hd|Hd].
    + right. intros v (c & Hc & <- & Hn). rewrite (row_value_unique _ _ _ _ Hnd Hc E) in Hn. contradiction.
    + left. exists (cells "value"), cells. auto.
  - right. intros v (c & Hc & _). apply (row_value_In _ _ _ Hnd) in Hc. congruence.
Qed.

(** Index and columns stay; only values change: a label gets the last value that is given
    to it, and keeps its value if there is none. *)
Theorem C56_update_parameter_values :
  forall others params,
    In "value" (pf_columns params) ->
    (forall o, In o others -> In "value" (pf_columns o) /\ NoDup (pf_index o)) ->
    exists out, update_parameter_values params others = Ok out /\
      pf_columns out = pf_columns params /\ pf_index out = pf_index params /\
      forall i lb cells cells',
        nth_error (pf_rows params) i = Some (lb, cells) -> nth_error (pf_rows out) i = Some (lb, cells') ->
        (forall c, c <> "value" -> cells' c = cells c) /\
        (forall v, gives_last others lb v -> cells' "value" = v) /\
        ((forall o v, In o others -> ~ gives o lb v) -> cells' "value" = cells "value").
Proof.
  induction others as [|o others IH]; intros params Hv Hall.
  - exists params. split; [reflexivity|]. split; [reflexivity|]. split; [reflexivity|].
    intros i lb cells cells' H H'. rewrite H in H'. injection H' as <-. split; [reflexivity|]. split; [|reflexivity].
    intros v (b & o & a & E & _). destruct b; discriminate.
  - destruct (Hall o (or_introl eq_refl)) as [Hvo Hndo].
    destruct (update_values_ok params o Hv Hvo Hndo) as (mid & E & Hcm & Him & Hm).
    destruct (IH mid) as (out & Eo & Hco & Hio & Ho).
    { now rewrite Hcm. } { intros o' H. apply Hall. now right. }
    exists out. split; [unfold update_parameter_values in *; cbn [fold_left rbind]; now rewrite E|].
    split; [congruence|]. split; [congruence|].
    intros i lb cells cells' Hi Hi'.
    assert (Hmid : exists cm, nth_error (pf_rows mid) i = Some (lb, cm)).
    { assert (G : nth_error (pf_index mid) i = Some lb).
      { rewrite Him. unfold pf_index. exact (map_nth_error fst _ _ Hi). }
      unfold pf_index in G. rewrite nth_error_map in G. destruct (nth_error (pf_rows mid) i) as [[l cm]|]; [|discriminate].
      injection G as ->. eauto. }
    destruct Hmid as [cm Hcmid]. destruct (Hm i lb cells cm Hi Hcmid) as (A1 & A2 & A3).
    destruct (Ho i lb cm cells' Hcmid Hi') as (B1 & B2 & B3). split; [|split].
    + intros c Hc. now rewrite B1, A1.
    + intros v (before & x & after & El & Hg & Hlast). destruct before as [|b before].
      * injection El as <- <-. rewrite B3 by exact Hlast. now apply A2.
      * injection El as <- ->. apply B2. exists before, x, after. auto.
    + intros Hno. rewrite B3 by (intros o' v H; apply Hno; now right). apply A3. intros v. apply Hno. now left.
Qed.

(** For each label one of the two cases of the theorem applies. *)
Theorem C56_cases :
  forall others lb, (forall o, In o others -> NoDup (pf_index o)) ->
    (exists v, gives_last others lb v) \/ (forall o v, In o others -> ~ gives o lb v).
Proof.
  induction others as [|o others IH]; intros lb H.
  - right. intros o v [].
  - destruct (IH lb) as [(v & b & x & a & -> & Hg & Hl)|Hno]; [intros; apply H; now right| |].
    + left. exists v, (o :: b), x, a. auto.
    + destruct (gives_dec o lb) as [(v & Hg)|Hn]; [apply H; now left| |].
      * left. exists v, [], o, others. auto.
      * right. intros o' v [<-|Hin]; auto.
Qed.

(** Tables with repeated labels and tables without values are rejected. *)
Theorem C56_errors :
  forall params other,
    (~ In "value" (pf_columns params) \/ ~ In "value" (pf_columns other) ->
     update_parameter_values params [other] = Err KeyError) /\
    (In "value" (pf_columns params) -> In "value" (pf_columns other) ->
     ~ NoDup (pf_index other) -> pf_index other <> pf_index params ->
     update_parameter_values params [other] = Err ValueError).
Proof.
  intros params other. unfold update_parameter_values. cbn [fold_left rbind]. unfold update_values. split.
  - intros [H|H]; apply smem_false in H; rewrite H; [reflexivity|]. now destruct (smem "value" (pf_columns params)).
  - intros H1 H2 Hd Hne. rewrite (proj2 (smem_In _ _) H1), (proj2 (smem_In _ _) H2). cbn [negb].
    unfold reindex_rows. destruct (labels_eqb (map fst (pf_rows other)) (pf_index params)) eqn:E.
    + apply labels_eqb_spec in E. contradiction.
    + destruct (has_dup (map fst (pf_rows other))) eqn:Ed; [reflexivity|]. apply has_dup_NoDup in Ed. contradiction.
Qed.

(** Tables with the same index are accepted even if it has duplicates; they are updated
    row by row. *)
Theorem C56_same_index :
  forall params other,
    In "value" (pf_columns params) -> In "value" (pf_columns other) -> pf_index other = pf_index params ->
    exists out, update_parameter_values params [other] = Ok out /\
      pf_columns out = pf_columns params /\ pf_index out = pf_index params /\
      forall i lb cells new cells',
        nth_error (pf_rows params) i = Some (lb, cells) -> nth_error (pf_rows other) i = Some (lb, new) ->
        nth_error (pf_rows out) i = Some (lb, cells') ->
        (forall c, c <> "value" -> cells' c = cells c) /\
        (new "value" <> PNan -> cells' "value" = new "value") /\
        (new "value" = PNan -> cells' "value" = cells "value").
Proof.
  intros params other Hv Hvo Hi. unfold update_parameter_values. cbn [fold_left rbind]. unfold update_values.
  rewrite (proj2 (smem_In _ _) Hv), (proj2 (smem_In _ _) Hvo). cbn [negb]. unfold reindex_rows.
  assert (E : labels_eqb (map fst (pf_rows other)) (pf_index params) = true) by now apply labels_eqb_spec.
  rewrite E. cbn [rbind]. eexists. split; [reflexivity|]. cbn [pf_columns]. split; [reflexivity|].
  assert (Hl : length (pf_rows other) = length (pf_rows params)).
  { unfold pf_index in Hi. apply (f_equal (@length _)) in Hi. now rewrite !map_length in Hi. }
  split.
  - unfold pf_index. cbn [pf_rows]. rewrite map_map. cbn [fst].
    rewrite <- (map_map (fun x => fst x) fst). f_equal.
    clear - Hl. revert Hl. generalize (pf_rows other). induction (pf_rows params) as [|x l IH]; intros [|y l'] H;
      try discriminate; [reflexivity|]. simpl. f_equal. apply IH. now injection H.
  - intros i lb cells new cells' H1 H2 H3. cbn [pf_rows] in H3. rewrite nth_error_map in H3.
    rewrite (proj2 (nth_error_combine _ _ _ _ _) (conj H1 H2)) in H3. cbn [option_map fst snd] in H3. injection H3 as <-. cbv beta.
    split; [|split].
    + intros c Hc. apply String.eqb_neq in Hc. now rewrite Hc.
    + cbn. destruct (new "value"); congruence.
    + cbn. intros ->. reflexivity.
Qed.

(** * Examples *)

(** All parameters of the small model, with values and bounds. *)
Definition full_frame (index : list label) : pframe :=
  mk_pframe ["value"; "lower_bound"] (map (fun il => (snd il, fun c =>
    if String.eqb c "value" then PNum (inject_Z (Z.of_nat (fst il))) else PNegInf)) (enumerate index)).

Lemma full_frame_index index : pf_index (full_frame index) = index.
Proof. unfold pf_index, full_frame. cbn [pf_rows]. rewrite map_map. apply map_snd_enumerate. Qed.

Lemma full_frame_covers md p : wf_dicts md -> good_names md -> process_model md = Ok p ->
  covers md (full_frame (params_index_of p)).
Proof.
  intros Hwf Hg Hp. split; rewrite full_frame_index.
  - now apply (NoDup_params_index md).
  - intros lb Hlb. now apply (In_params_index md p lb Hwf Hp).
Qed.

Example C52_nonvacuous :
  wf_dicts small_model /\ process_model small_model = Ok small_p /\
  covers small_model (full_frame (params_index_of small_p)) /\
  (exists f fs, In (f, fs) (md_factors small_model) /\ ~ named (One "cog") f /\ fs_measurements fs <> []) /\
  (exists f fs, In (f, fs) (md_factors small_model) /\ named (One "soc") f /\ fs_measurements fs <> []) /\
  (forall a, md_anchoring small_model = Some a -> as_outcomes a <> None) /\
  md_controls small_model <> None /\ measures small_model 1 "cog" "a" /\
  In "value" (pf_columns (full_frame (params_index_of small_p))).
Proof.
  split; [exact small_model_wf|]. split; [exact small_model_accepted|].
  split; [exact (full_frame_covers small_model small_p small_model_wf small_model_good_names small_model_accepted)|].
  split; [eexists "soc", _; split; [right; left; reflexivity|split; [discriminate|discriminate]]|].
  split; [eexists "soc", _; split; [right; left; reflexivity|split; [reflexivity|discriminate]]|].
  split; [intros a [= <-]; discriminate|]. split; [discriminate|].
  split; [eexists _, _; split; [left; reflexivity|split; [reflexivity|now left]]|now left].
Qed.

(** The small model without its first factor has two periods. *)
Example C54_nonvacuous :
  exists md', remove_factors (One "cog") small_model None = Ok (md', None) /\
    latent_of md' = ["soc"] /\ has_n_periods md' 2 /\ md_stagemap md' = Some [0%Z] /\
    outcomes_of md' = [("soc", "Q2")] /\
    remove_measurements_warns (One "c") small_model = true /\ remove_measurements_warns (One "b") small_model = false.
Proof.
  eexists. split; [vm_compute; reflexivity|]. split; [reflexivity|]. split.
  - split.
    + eexists "soc", _. split; [left; reflexivity|reflexivity].
    + intros f fs [[= <- <-]|[]]. simpl. lia.
  - repeat split.
Qed.

Lemma minimal_model_wf : wf_dicts minimal_model.
Proof. split; [repeat constructor; simpl; tauto|]. intros a o H. discriminate. Qed.

Lemma minimal_model_names : good_names minimal_model.
Proof.
  split; [repeat constructor; simpl; tauto|]. split; [intros f [<-|[]]; simpl; unfold without_char; simpl; intuition discriminate|].
  split.
  - intros f [<-|[]]. split; [unfold without_char; simpl; intuition discriminate|]. split; [simpl; intuition discriminate|].
    intros g. discriminate.
  - split; [constructor|]. split; [intros []|]. intros f fs n names [[= <- <-]|[]]; discriminate.
Qed.

Example C55_nonvacuous :
  exists p, wf_dicts minimal_model /\ good_names minimal_model /\ process_model minimal_model = Ok p /\
    pf_index (full_frame (params_index_of p)) = params_index_of p /\
    has_transition minimal_model "f" (TStr "linear") /\ (forall f, ~ has_transition minimal_model f (TStr "translog")) /\
    (forall lb cells c, row_of (full_frame (params_index_of p)) lb cells ->
       In c ["value"; "lower_bound"; "upper_bound"] -> In c (pf_columns (full_frame (params_index_of p))) ->
       cells c <> PNan) /\
    exists f, has_transition small_model f (TStr "translog").
Proof.
  eexists. split; [exact minimal_model_wf|]. split; [exact minimal_model_names|]. split; [vm_compute; reflexivity|].
  split; [apply full_frame_index|]. split; [eexists; split; [left; reflexivity|reflexivity]|].
  split; [intros f (fs & [E|[]] & Ht); injection E as <- <-; discriminate Ht|]. split.
  - intros lb cells c Hrow _ _. unfold row_of, full_frame in Hrow. cbn [pf_rows] in Hrow.
    apply in_map_iff in Hrow as ([i l] & [= <- <-] & _). destruct (String.eqb c "value"); discriminate.
  - eexists "cog", _. split; [left; reflexivity|reflexivity].
Qed.

Example C56_nonvacuous :
  let lb : label := (CShockSds, 0, "f", "-") in
  let frame x := mk_pframe ["value"] [(lb, fun _ => x)] in
  let others := [frame (PNum 1); frame (PNum 2); frame PNan] in
  (forall o, In o others -> In "value" (pf_columns o) /\ NoDup (pf_index o)) /\
  gives_last others lb (PNum 2) /\
  exists out, update_parameter_values (frame (PNum 0)) others = Ok out /\
    exists cells, row_of out lb cells /\ cells "value" = PNum 2.
Proof.
  intros lb frame others. split; [|split].
  - intros o [<-|[<-|[<-|[]]]]; (split; [now left|repeat constructor; simpl; tauto]).
  - exists [frame (PNum 1)], (frame (PNum 2)), [frame PNan]. split; [reflexivity|]. split.
    + eexists. split; [left; reflexivity|]. split; [reflexivity|discriminate].
    + intros o v [<-|[]] (cells & [E|[]] & <- & Hn). injection E as <-. now apply Hn.
  - eexists. split; [vm_compute; reflexivity|]. eexists. split; [left; reflexivity|reflexivity].
Qed.

Print Assumptions C52_remove_factors.
Print Assumptions C52_extract_factors.
Print Assumptions C52_remove_controls.
Print Assumptions C52_remove_measurements.
Print Assumptions C52_switch_translog_to_linear.
Print Assumptions C53_extended_partial.
Print Assumptions C53_reduced_periods_partial.
Print Assumptions C53_zero_periods.
Print Assumptions C53_refuted.
Print Assumptions C54_remove_factors.
Print Assumptions C54_extract_factors.
Print Assumptions C54_remove_measurements.
Print Assumptions C54_warning.
Print Assumptions C54_remove_controls.
Print Assumptions C54_reduce_n_periods.
Print Assumptions C54_negative_periods.
Print Assumptions C55_switch.
Print Assumptions C55_round_trip.
Print Assumptions C55_round_trip_params.
Print Assumptions C56_update_parameter_values.
Print Assumptions C56_cases.
Print Assumptions C56_errors.
Print Assumptions C56_same_index.
