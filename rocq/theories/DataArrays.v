(** All outcomes of process_data for an accepted model. *)
Require Import String Ascii Arith ZArith Bool List Lia Sorted Permutation.
From Verif Require Import PyBase ListFacts StringFacts ModelSpec ProcessModel CheckModel SpecModel
  ProcessModelFacts AcceptFacts ParamsIndex SpecIndex IndexFacts SpecParse ProcessData SpecData
  DataFacts ExampleModels PropsSpec PropsParse.
Import ListNotations.
Open Scope string_scope.
Open Scope list_scope.
Open Scope nat_scope.

Lemma constant_not_copy outs : ~ In "constant" (map copy_name outs).
Proof.
  intros H. apply in_map_iff in H as (fo & E & _). unfold copy_name in E.
  assert (Hin : In "_"%char (list_ascii_of_string "constant")).
  { rewrite <- E, list_ascii_app. apply in_or_app. right. simpl. now left. }
  simpl in Hin. intuition discriminate.
Qed.

Section Data.
  Context {V : Type}.
  Variable one : V.
  Variable veqb : V -> V -> bool.
  Hypothesis veqb_spec : forall x y, veqb x y = true <-> x = y.
  Variables (md : model_dict) (p : processed) (n : nat).
  Hypothesis Hwf : wf_dicts md.
  Hypothesis Hp : process_model md = Ok p.
  Hypothesis Hn : has_n_periods md n.
  Hypothesis Hclear : clear_outcomes md.
  Variable df : frame V.
  Variables ids lv : list Z.
  Hypothesis Hdf : wf_frame df.
  Hypothesis Hids : ids_of df ids.
  Hypothesis Hlv : levels_of df lv.
  Let cs := codes df ids.
  Let outs := outcomes_of md.
  Let cell (i t : nat) := copies outs (set_fun "constant" (Some one) (raw df lv i t)).
  Let cols := columns_after outs ("constant" :: fr_columns df).
  Let val := value one md df lv.

  Lemma d_periods : l_periods (p_labels p) = range n.
  Proof.
    destruct (p_labels_eq md p Hp) as (_ & _ & _ & -> & _).
    f_equal. apply (has_n_periods_fun md); [apply (p_dims_eq md p Hp)|exact Hn].
  Qed.

  Lemma d_controls : l_controls (p_labels p) = "constant" :: controls_of md.
  Proof. now destruct (p_labels_eq md p Hp) as (_ & _ & -> & _). Qed.

  Lemma d_observed : l_observed (p_labels p) = observed_of md.
  Proof. now destruct (p_labels_eq md p Hp) as (_ & -> & _). Qed.

  Lemma d_anch : p_anch p = process_anchoring md.
  Proof. now apply process_model_inv in Hp as (_ & _ & -> & _). Qed.

  Lemma d_factors : a_factors (p_anch p) = map fst outs.
  Proof.
    rewrite d_anch. unfold outs, outcomes_of, process_anchoring, get_default, dkeys.
    destruct (md_anchoring md) as [a|]; [|reflexivity]. destruct (as_outcomes a); reflexivity.
  Qed.

  Lemma d_get f o : In (f, o) outs -> dget (a_outcomes (p_anch p)) f = Some o.
  Proof.
    intros H. rewrite d_anch, a_outcomes_eq. apply In_dget; [|exact H].
    destruct Hwf as [_ Ho]. unfold outcomes_of.
    destruct (md_anchoring md) as [a|] eqn:Ea; [|constructor].
    destruct (as_outcomes a) as [o'|] eqn:Eo; [|constructor]. eapply Ho; eauto.
  Qed.

  Lemma n_pos : 1 <= n.
  Proof.
    destruct (p_dims_eq md p Hp) as (_ & _ & _ & _ & H & H1).
    now rewrite (has_n_periods_fun md _ _ Hn H).
  Qed.

  Lemma cell_value z t x : In z ids -> cell (code_of z (zsort_unique (fr_id_level df))) t x = val z t x.
  Proof.
    intros Hz. unfold cell, val, value. rewrite (copies_value one md _ x Hclear).
    now rewrite (raw_code df ids lv Hdf Hids z t Hz).
  Qed.

  Lemma In_cols x : smem x cols = true <-> available md df x.
  Proof.
    rewrite smem_In. unfold cols, columns_after, available. rewrite in_app_iff, <- in_rev. simpl.
    fold outs. intuition.
  Qed.

  Lemma not_In_cols x : smem x cols = false <-> ~ available md df x.
  Proof. rewrite <- In_cols. now rewrite not_true_iff_false. Qed.

  Definition outcomes_present : Prop := forall fo, In fo outs -> In (snd fo) (fr_columns df).

  Lemma prepare_ok :
    unique_index df -> outcomes_present ->
    prepare_data one df (p_labels p) (p_anch p) = Ok (cols, grid cs n cell).
  Proof.
    intros Hu Ho. unfold prepare_data. rewrite d_periods, (pre_process_ok df ids lv Hdf Hids Hlv n Hu).
    cbn [rbind].
    rewrite (map_grid (codes df ids) n _ (fun _ _ c => set_fun "constant" (Some one) c))
      by reflexivity.
    rewrite d_factors.
    apply (add_copies_ok (p_anch p) (codes df ids) n outs).
    - exact d_get.
    - intros fo Hfo. right. now apply Ho.
  Qed.

  Lemma prepare_dup : ~ unique_index df -> prepare_data one df (p_labels p) (p_anch p) = Err ValueError.
  Proof.
    intros Hu. unfold prepare_data.
    now rewrite (pre_process_dup df lv Hdf Hlv _ Hu).
  Qed.

  Lemma prepare_no_outcome fo :
    unique_index df -> In fo outs -> ~ In (snd fo) (fr_columns df) ->
    prepare_data one df (p_labels p) (p_anch p) = Err KeyError.
  Proof.
    intros Hu Hin Hno. unfold prepare_data.
    rewrite d_periods, (pre_process_ok df ids lv Hdf Hids Hlv n Hu). cbn [rbind].
    rewrite d_factors. apply (add_copies_fail (p_anch p) outs _ _ fo).
    - exact d_get.
    - intros fo' H. now apply Hclear.
    - exact Hin.
    - intros [E|E]; [|contradiction]. apply (proj1 (proj2 Hclear fo Hin)). now symmetry.
  Qed.

  Lemma column_values t x :
    t < n -> column x (in_period t (grid cs n cell)) = map (fun z => val z t x) ids.
  Proof.
    intros Ht. rewrite column_grid by exact Ht. unfold cs, codes. rewrite map_map.
    apply map_ext_in. intros z Hz. now apply cell_value.
  Qed.

  Lemma In_period_measurements t v :
    In v (get_period_measurements (p_update p) t) <-> In (t, v) (equations md n).
  Proof.
    rewrite <- (equations_keys md p n Hwf Hp Hn). unfold get_period_measurements.
    rewrite !in_map_iff. split.
    - intros (r & <- & Hr). apply filter_In in Hr as [Hr E]. apply Nat.eqb_eq in E.
      exists r. split; [unfold u_key; congruence|exact Hr].
    - intros (r & E & Hr). injection E as E1 E2. exists r. split; [exact E2|].
      apply filter_In. split; [exact Hr|now apply Nat.eqb_eq].
  Qed.

  Lemma report_spec est t x pr :
    In (t, x, pr) (data_report veqb cols (grid cs n cell) (p_update p) (p_labels p) est) <->
    t < n /\ has_problem one md n df ids lv est t x pr.
  Proof.
    unfold data_report. rewrite d_periods, d_controls, d_observed, in_flat_map.
    split.
    - intros (t' & Ht & H). apply In_range in Ht.
      apply in_app_iff in H as [H|H]; [|apply in_app_iff in H as [H|H]].
      + apply in_flat_map in H as (c & Hc & H).
        rewrite column_values in H by exact Ht.
        destruct (negb (smem c cols) || forallb is_null (map (fun z => val z t' c) ids)) eqn:E;
          [|destruct H].
        destruct H as [[= <- <- <-]|[]]. split; [exact Ht|]. apply control_missing; [exact Hc|].
        apply orb_true_iff in E as [E|E].
        * left. now apply not_In_cols, negb_true_iff.
        * right. intros z Hz. rewrite forallb_forall in E. apply is_null_spec. apply E.
          apply in_map_iff. eauto.
      + destruct est; [|destruct H]. apply in_flat_map in H as (v & Hv & H).
        apply In_period_measurements in Hv. rewrite column_values in H by exact Ht.
        destruct (smem v cols) eqn:Ev; cbn [negb] in H.
        * destruct (length (unique veqb (dropna (map (fun z => val z t' v) ids))) =? 1) eqn:E;
            [|destruct H].
          destruct H as [[= <- <- <-]|[]]. split; [exact Ht|].
          apply (unique_one veqb veqb_spec) in E as (w & Hw & Hall).
          apply In_dropna, in_map_iff in Hw as (z & Ez & Hz).
          apply measurement_constant with w; [reflexivity|exact Hv|now apply In_cols|eauto|].
          intros z' y Hz' Ey. apply Hall. apply In_dropna, in_map_iff. eauto.
        * destruct H as [[= <- <- <-]|[]]. split; [exact Ht|].
          apply measurement_missing; [reflexivity|exact Hv|now apply not_In_cols].
      + apply in_flat_map in H as (f & Hf & H). rewrite column_values in H by exact Ht.
        destruct (smem f cols) eqn:Ef; cbn [negb] in H.
        * destruct (existsb is_null (map (fun z => val z t' f) ids)) eqn:E; [|destruct H].
          destruct H as [[= <- <- <-]|[]]. split; [exact Ht|].
          apply existsb_exists in E as (y & Hy & En). apply in_map_iff in Hy as (z & Ez & Hz).
          apply is_null_spec in En. subst y.
          apply observed_incomplete with z; [exact Hf|now apply In_cols|exact Hz|exact En].
        * destruct H as [[= <- <- <-]|[]]. split; [exact Ht|].
          apply observed_absent; [exact Hf|now apply not_In_cols].
    - intros [Ht H]. exists t. split; [now apply In_range|]. rewrite !in_app_iff, !in_flat_map.
      destruct H as [c Hc H|v He Hv Ha|v w He Hv Ha (z & Hz & Ez) Hall|f Hf Ha|f z Hf Ha Hz Ez].
      + left. exists c. split; [exact Hc|]. rewrite column_values by exact Ht.
        assert (E : negb (smem c cols) || forallb is_null (map (fun z => val z t c) ids) = true).
        { apply orb_true_iff. destruct H as [H|H].
          - left. apply negb_true_iff. now apply not_In_cols.
          - right. apply forallb_forall. intros y Hy. apply in_map_iff in Hy as (z & <- & Hz).
            apply is_null_spec. now apply H. }
        rewrite E. now left.
      + right. left. subst est. rewrite in_flat_map. exists v.
        split; [now apply In_period_measurements|].
        apply not_In_cols in Ha. rewrite Ha. now left.
      + right. left. subst est. rewrite in_flat_map. exists v.
        split; [now apply In_period_measurements|].
        apply In_cols in Ha. rewrite Ha. cbn [negb]. rewrite column_values by exact Ht.
        assert (E : length (unique veqb (dropna (map (fun z => val z t v) ids))) =? 1 = true).
        { apply (unique_one veqb veqb_spec). exists w. split.
          - apply In_dropna, in_map_iff. eauto.
          - intros y Hy. apply In_dropna, in_map_iff in Hy as (z' & Ez' & Hz'). eapply Hall; eauto. }
        rewrite E. now left.
      + right. right. exists f. split; [exact Hf|]. apply not_In_cols in Ha. rewrite Ha. now left.
      + right. right. exists f. split; [exact Hf|]. apply In_cols in Ha. rewrite Ha. cbn [negb].
        rewrite column_values by exact Ht.
        assert (E : existsb is_null (map (fun z => val z t f) ids) = true).
        { apply existsb_exists. exists None. split; [|reflexivity]. apply in_map_iff. eauto. }
        rewrite E. now left.
  Qed.

  Lemma equations_period t v : In (t, v) (equations md n) -> t < n.
  Proof.
    unfold equations. intros H. apply In_first_appearances in H.
    unfold written_equations in H. apply in_flat_map in H as (t' & Ht & H).
    apply in_map_iff in H as (v' & [= -> ->] & _). apply in_seq in Ht. lia.
  Qed.

  Lemma problematic_spec z t :
    In z ids ->
    is_problematic ("constant" :: controls_of md) (p_update p)
      (mk_prow (code_of z (zsort_unique (fr_id_level df))) t
               (cell (code_of z (zsort_unique (fr_id_level df))) t)) = true <->
    discarded one md n df lv z t.
  Proof.
    intros Hz. unfold is_problematic, discarded. cbn [pr_period pr_cells].
    rewrite !andb_true_iff, !existsb_exists. split.
    - intros [[_ (c & Hc & Ec)] (v & Hv & Ev)].
      apply is_null_spec in Ec. rewrite cell_value in Ec by exact Hz. split.
      + destruct Hc as [<-|Hc]; [|eauto]. exfalso. unfold val, value, data_value in Ec.
        destruct (find _ (outcomes_of md)) as [fo|] eqn:Ef; [|discriminate].
        apply find_some in Ef as [Hin Ef]. apply String.eqb_eq in Ef.
        apply (constant_not_copy (outcomes_of md)). rewrite Ef. now apply in_map.
      + exists v. split; [now apply In_period_measurements|].
        rewrite cell_value in Ev by exact Hz. intros E. unfold val in Ev. rewrite E in Ev.
        discriminate.
    - intros [(c & Hc & Ec) (v & Hv & Ev)]. split; [split|].
      + rewrite <- (equations_keys md p n Hwf Hp Hn) in Hv.
        apply in_map_iff in Hv as (r & E & Hr). injection E as E _. exists r.
        split; [exact Hr|now apply Nat.eqb_eq].
      + exists c. split; [now right|]. apply is_null_spec. now rewrite cell_value.
      + exists v. split; [now apply In_period_measurements|]. rewrite cell_value by exact Hz.
        unfold val. destruct (value one md df lv z t v); [reflexivity|contradiction].
  Qed.

  Definition final_cell (i t : nat) : string -> option V :=
    if is_problematic ("constant" :: controls_of md) (p_update p) (mk_prow i t (cell i t))
    then fun _ => None else cell i t.

  (** The value that is handed to the filter. *)
  Definition filed (z : Z) (t : nat) (x : string) (w : option V) : Prop :=
    (discarded one md n df lv z t -> w = None) /\
    (~ discarded one md n df lv z t -> w = val z t x).

  Lemma final_cell_filed z t x :
    In z ids -> filed z t x (final_cell (code_of z (zsort_unique (fr_id_level df))) t x).
  Proof.
    intros Hz. unfold filed, final_cell. pose proof (problematic_spec z t Hz) as H.
    destruct (is_problematic _ _ _).
    - split; [reflexivity|]. intros Hd. exfalso. apply Hd, H. reflexivity.
    - split; [|intros _; now apply cell_value]. intros Hd. apply H in Hd. discriminate.
  Qed.

  Definition complete_columns : Prop :=
    (forall c, In c (controls_of md) -> available md df c) /\
    (forall f, In f (observed_of md) -> available md df f) /\
    (forall t v, In (t, v) (equations md n) -> available md df v).

  Lemma handle_ok :
    complete_columns ->
    handle_controls cols (grid cs n cell) ("constant" :: controls_of md) (p_update p) =
    Ok (grid cs n final_cell).
  Proof.
    intros (Hc & _ & Hv). unfold handle_controls.
    assert (E1 : forallb (fun c => smem c cols) ("constant" :: controls_of md) = true).
    { apply forallb_forall. intros c [<-|H]; apply In_cols; [right; now left|now apply Hc]. }
    assert (E2 : forallb (fun row => smem (u_var row) cols) (p_update p) = true).
    { apply forallb_forall. intros r Hr. apply In_cols. apply (Hv (u_period r)).
      rewrite <- (equations_keys md p n Hwf Hp Hn). apply in_map_iff. now exists r. }
    rewrite E1, E2. cbn [andb]. f_equal.
    rewrite (map_grid cs n cell (fun i t c =>
      if is_problematic ("constant" :: controls_of md) (p_update p) (mk_prow i t c)
      then fun _ => None else c)); [reflexivity|].
    intros i t c. destruct (is_problematic _ _ _); reflexivity.
  Qed.

  Lemma n_obs_eq : length (grid cs n cell) / length (l_periods (p_labels p)) = length ids.
  Proof.
    rewrite d_periods, grid_length. unfold range. rewrite seq_length. unfold cs, codes.
    rewrite map_length. pose proof n_pos. apply Nat.div_mul. lia.
  Qed.

  Lemma variables_ok (C : nat -> nat -> string -> option V) vars :
    (forall x, In x vars -> available md df x) ->
    variables_array cols (grid cs n C) (range n) vars (length ids) =
    Ok (map (fun t => map (fun i => map (C i t) vars) cs) (range n)).
  Proof.
    intros H. unfold variables_array. rewrite <- mapM_Ok_map. apply mapM_ext. intros t Ht.
    apply In_range in Ht.
    assert (E1 : forallb (fun c => smem c cols) vars = true).
    { apply forallb_forall. intros c Hc. now apply In_cols, H. }
    rewrite E1, in_period_grid by exact Ht. rewrite map_length. unfold cs, codes at 1.
    rewrite map_length, Nat.eqb_refl. f_equal. rewrite map_map. reflexivity.
  Qed.

  Lemma measurements_ok (C : nat -> nat -> string -> option V) :
    complete_columns ->
    measurements_array cols (grid cs n C) (p_update p) (length ids) =
    Ok (map (fun r => map (fun i => C i (u_period r) (u_var r)) cs) (p_update p)).
  Proof.
    intros (_ & _ & Hv). unfold measurements_array. rewrite <- mapM_Ok_map. apply mapM_ext.
    intros r Hr.
    assert (Hin : In (u_period r, u_var r) (equations md n)).
    { rewrite <- (equations_keys md p n Hwf Hp Hn). apply in_map_iff. now exists r. }
    rewrite (proj2 (In_cols _) (Hv _ _ Hin)).
    rewrite column_grid by now apply (equations_period _ (u_var r)).
    rewrite map_length. unfold cs, codes at 1. rewrite map_length, Nat.eqb_refl. reflexivity.
  Qed.

  Definition the_arrays (est : bool) : arrays V :=
    mk_arrays
      (if est then map (fun r => map (fun i => final_cell i (u_period r) (u_var r)) cs) (p_update p)
       else [])
      (map (fun t => map (fun i => map (final_cell i t) ("constant" :: controls_of md)) cs) (range n))
      (map (fun t => map (fun i => map (final_cell i t) (observed_of md)) cs) (range n)).

  Definition no_problem (est : bool) : Prop :=
    forall t x pr, t < n -> ~ has_problem one md n df ids lv est t x pr.

  Lemma check_ok est :
    check_data veqb cols (grid cs n cell) (p_update p) (p_labels p) est = Ok tt <-> no_problem est.
  Proof.
    unfold check_data, no_problem. pose proof (report_spec est) as H.
    destruct (data_report veqb cols (grid cs n cell) (p_update p) (p_labels p) est)
      as [|[[t x] pr] l].
    - split; [|reflexivity]. intros _ t x pr Ht Hp'. apply (proj2 (H t x pr)). auto.
    - split; [discriminate|]. intros H'. exfalso. destruct (proj1 (H t x pr)) as [Ht Hp'].
      + now left.
      + exact (H' t x pr Ht Hp').
  Qed.

  Lemma no_problem_columns est :
    no_problem est ->
    (forall c, In c (controls_of md) -> available md df c) /\
    (forall f, In f (observed_of md) -> available md df f) /\
    (est = true -> forall t v, In (t, v) (equations md n) -> available md df v).
  Proof.
    intros H. pose proof n_pos as Hpos.
    assert (Hdec : forall x, available md df x \/ ~ available md df x).
    { intros x. destruct (smem x cols) eqn:E; [left; now apply In_cols|right; now apply not_In_cols]. }
    split; [|split].
    - intros c Hc. destruct (Hdec c) as [|Hno]; [assumption|]. exfalso.
      apply (H 0 c VariableMissing); [lia|]. apply control_missing; [now right|now left].
    - intros f Hf. destruct (Hdec f) as [|Hno]; [assumption|]. exfalso.
      apply (H 0 f VariableMissing); [lia|]. now apply observed_absent.
    - intros He t v Hv. destruct (Hdec v) as [|Hno]; [assumption|]. exfalso.
      apply (H t v VariableMissing); [now apply (equations_period _ v)|].
      now apply measurement_missing.
  Qed.

  Definition acceptable (est : bool) : Prop :=
    unique_index df /\ outcomes_present /\ no_problem est /\
    (forall t v, In (t, v) (equations md n) -> available md df v).

  Lemma process_ok est :
    acceptable est ->
    process_data one veqb df (p_labels p) (p_update p) (p_anch p) est = Ok (the_arrays est).
  Proof.
    intros (Hu & Ho & Hnp & Hv). unfold process_data.
    rewrite (prepare_ok Hu Ho). cbn [rbind fst snd].
    rewrite (proj2 (check_ok est) Hnp). cbn [rbind].
    destruct (no_problem_columns est Hnp) as (Hc & Hf & _).
    assert (Hcc : complete_columns) by (split; [|split]; assumption).
    rewrite n_obs_eq, d_controls, d_observed, d_periods, (handle_ok Hcc). cbn [rbind].
    assert (E : (if est then measurements_array cols (grid cs n final_cell) (p_update p) (length ids)
                 else Ok []) = Ok (ar_meas (the_arrays est))).
    { destruct est; [|reflexivity]. now apply measurements_ok. }
    rewrite E. cbn [rbind].
    rewrite variables_ok.
    2: { intros x [<-|Hx]; [right; now left|now apply Hc]. }
    cbn [rbind]. rewrite variables_ok by exact Hf. reflexivity.
  Qed.

  Lemma handle_fail t v :
    In (t, v) (equations md n) -> ~ available md df v ->
    forall rows : list (prow V),
    handle_controls cols rows ("constant" :: controls_of md) (p_update p) = Err KeyError.
  Proof.
    intros Hv Ha rows. unfold handle_controls.
    assert (E2 : forallb (fun row => smem (u_var row) cols) (p_update p) = false).
    { apply not_true_iff_false. intros E. rewrite forallb_forall in E.
      rewrite <- (equations_keys md p n Hwf Hp Hn) in Hv.
      apply in_map_iff in Hv as (r & Er & Hr). injection Er as _ <-.
      apply Ha. apply In_cols. now apply E. }
    now rewrite E2, andb_false_r.
  Qed.

  (** Every outcome of the function. *)
  Lemma process_cases est :
    (acceptable est /\
     process_data one veqb df (p_labels p) (p_update p) (p_anch p) est = Ok (the_arrays est)) \/
    (~ unique_index df /\
     process_data one veqb df (p_labels p) (p_update p) (p_anch p) est = Err ValueError) \/
    (unique_index df /\ ~ outcomes_present /\
     process_data one veqb df (p_labels p) (p_update p) (p_anch p) est = Err KeyError) \/
    (unique_index df /\ outcomes_present /\
     (exists t x pr, t < n /\ has_problem one md n df ids lv est t x pr) /\
     process_data one veqb df (p_labels p) (p_update p) (p_anch p) est = Err ValueError) \/
    (unique_index df /\ outcomes_present /\ no_problem est /\
     (exists t v, In (t, v) (equations md n) /\ ~ available md df v) /\
     process_data one veqb df (p_labels p) (p_update p) (p_anch p) est = Err KeyError).
  Proof.
    destruct (has_dup_key (encode df)) eqn:Edup.
    { right. left.
      assert (Hu : ~ unique_index df).
      { intros Hu. apply (encode_dup df lv Hdf Hlv) in Hu. congruence. }
      split; [exact Hu|]. unfold process_data. now rewrite prepare_dup. }
    apply (encode_dup df lv Hdf Hlv) in Edup as Hu.
    destruct (forallb (fun fo => smem (snd fo) (fr_columns df)) outs) eqn:Eo.
    2: { right. right. left. apply not_true_iff_false in Eo.
         assert (exists fo, In fo outs /\ ~ In (snd fo) (fr_columns df)) as (fo & Hin & Hno).
         { clear - Eo. induction outs as [|fo l IH]; [exfalso; now apply Eo|]. simpl in Eo.
           destruct (smem (snd fo) (fr_columns df)) eqn:E.
           - destruct IH as (fo' & H & Hno); [exact Eo|]. exists fo'. split; [now right|exact Hno].
           - exists fo. split; [now left|]. now apply smem_false. }
         split; [exact Hu|]. split; [intros H; apply Hno, H, Hin|].
         unfold process_data. now rewrite (prepare_no_outcome fo Hu Hin Hno). }
    assert (Ho : outcomes_present).
    { intros fo Hfo. rewrite forallb_forall in Eo. now apply smem_In, Eo. }
    destruct (check_data veqb cols (grid cs n cell) (p_update p) (p_labels p) est) as [[]|e] eqn:Ec.
    2: { right. right. right. left. split; [exact Hu|]. split; [exact Ho|].
         pose proof (report_spec est) as Hr. unfold process_data.
         rewrite (prepare_ok Hu Ho). cbn [rbind fst snd].
         unfold check_data in *.
         destruct (data_report veqb cols (grid cs n cell) (p_update p) (p_labels p) est)
           as [|[[t x] pr] l] eqn:Er; [discriminate|].
         split; [|reflexivity]. exists t, x, pr. apply Hr. now left. }
    apply check_ok in Ec as Hnp.
    destruct (forallb (fun row => smem (u_var row) cols) (p_update p)) eqn:Ev.
    - left. assert (Ha : acceptable est); [|split; [exact Ha|now apply process_ok]].
      split; [exact Hu|]. split; [exact Ho|]. split; [exact Hnp|]. intros t v Hv.
      rewrite <- (equations_keys md p n Hwf Hp Hn) in Hv.
      apply in_map_iff in Hv as (r & Er & Hr). injection Er as _ <-.
      rewrite forallb_forall in Ev. now apply In_cols, Ev.
    - right. right. right. right.
      assert (exists t v, In (t, v) (equations md n) /\ ~ available md df v) as (t & v & Hv & Ha).
      { rewrite <- (equations_keys md p n Hwf Hp Hn). revert Ev.
        generalize (p_update p) as u. intros u Ev.
        induction u as [|r l IH]; [discriminate|]. simpl in Ev.
        destruct (smem (u_var r) cols) eqn:E.
        - destruct IH as (t & v & H & Hno); [exact Ev|]. exists t, v. split; [now right|exact Hno].
        - exists (u_period r), (u_var r). split; [now left|]. now apply not_In_cols. }
      split; [exact Hu|]. split; [exact Ho|]. split; [exact Hnp|]. split; [eauto|].
      unfold process_data. rewrite (prepare_ok Hu Ho). cbn [rbind fst snd]. rewrite Ec. cbn [rbind].
      rewrite d_controls, (handle_fail t v Hv Ha). reflexivity.
  Qed.
End Data.
