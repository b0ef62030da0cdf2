(** Properties C22 - C29: how the data set is turned into arrays. *)
Require Import String Ascii Arith ZArith Bool List Lia Sorted Permutation.
From Verif Require Import PyBase ListFacts StringFacts ModelSpec ProcessModel CheckModel SpecModel
  ProcessModelFacts AcceptFacts ParamsIndex SpecIndex IndexFacts SpecParse ProcessData SpecData
  DataFacts DataArrays ExampleModels PropsSpec PropsParse.
Import ListNotations.
Open Scope string_scope.
Open Scope list_scope.
Open Scope nat_scope.

(** ** C22 *)

(** For every data set: the preprocessed panel has one row per individual (in
    ascending order of the ids) and model period. The row of an individual and
    the [t]-th period holds the values of the observation of that individual and
    period, and only missing values if there is none. Duplicate observations
    raise an error. *)
Theorem C22_balanced_panel {V} (df : frame V) ids lv n :
  wf_frame df -> ids_of df ids -> levels_of df lv ->
  (unique_index df ->
   exists rows (number : Z -> nat),
     pre_process_data df (range n) = Ok rows /\
     length rows = length ids * n /\
     (forall a b, In a ids -> In b ids -> (a < b)%Z -> number a < number b) /\
     (forall k t id, nth_error ids k = Some id -> t < n ->
        exists q, nth_error rows (k * n + t) = Some q /\ pr_id q = number id /\ pr_period q = t /\
          (forall r, In r (fr_rows df) -> dr_id r = id -> nth_error lv t = Some (dr_period r) ->
             pr_cells q = dr_cells r) /\
          ((forall r, In r (fr_rows df) -> dr_id r = id -> nth_error lv t <> Some (dr_period r)) ->
           forall x, pr_cells q x = None))) /\
  (~ unique_index df -> pre_process_data df (range n) = Err ValueError).
Proof.
  intros Hdf Hids Hlv. split; [|intros Hu; now apply (pre_process_dup df lv Hdf Hlv)].
  intros Hu. exists (grid (codes df ids) n (raw df lv)).
  exists (fun z => code_of z (zsort_unique (fr_id_level df))).
  split; [exact (pre_process_ok df ids lv Hdf Hids Hlv n Hu)|].
  split; [rewrite grid_length; unfold codes; now rewrite map_length|].
  split.
  { intros a b Ha Hb Hab. apply code_of_lt; [apply zsort_unique_sorted| | |exact Hab].
    - now apply (ids_in_ilv df ids Hdf Hids). - now apply (ids_in_ilv df ids Hdf Hids). }
  intros k t id Hk Ht.
  assert (Hin : In id ids) by (eapply nth_error_In; eauto).
  exists (mk_prow (code_of id (zsort_unique (fr_id_level df))) t (raw_cells df lv id t)).
  split.
  { rewrite <- (raw_code df ids lv Hdf Hids id t Hin). clear Hin.
    unfold codes. revert k Hk. generalize ids as l. induction l as [|z l IH]; intros k Hk.
    - destruct k; discriminate.
    - unfold grid. simpl. destruct k as [|k].
      + injection Hk as ->. simpl. rewrite nth_error_app1.
        * erewrite map_nth_error; [reflexivity|]. now apply nth_error_range.
        * rewrite map_length. unfold range. now rewrite seq_length.
      + rewrite nth_error_app2; rewrite map_length; unfold range; rewrite seq_length; [|simpl; lia].
        replace (S k * n + t - n) with (k * n + t) by (simpl; lia). now apply IH. }
  split; [reflexivity|]. split; [reflexivity|]. cbn [pr_cells]. unfold raw_cells. split.
  - intros r Hr Hid Ht'. rewrite Ht'.
    rewrite (find_unique key _ (id, dr_period r) (fr_rows df) r); [reflexivity| |exact Hu|exact Hr|].
    + intros y. unfold key. rewrite andb_true_iff, !Z.eqb_eq.
      split; [intros [-> ->]; reflexivity|intros [= -> ->]; auto].
    + unfold key. congruence.
  - intros Hno x. destruct (nth_error lv t) as [w|]; [|reflexivity].
    destruct (find _ (fr_rows df)) as [r|] eqn:Er; [|reflexivity]. exfalso.
    apply find_some in Er as [Hr E]. apply andb_true_iff in E as [E1 E2].
    apply Z.eqb_eq in E1, E2. apply (Hno r Hr E1). now rewrite E2.
Qed.
Print Assumptions C22_balanced_panel.

(** ** C23 *)

Lemma raw_cells_perm {V} (df df' : frame V) lv :
  unique_index df -> Permutation (fr_rows df) (fr_rows df') ->
  forall id t, raw_cells df lv id t = raw_cells df' lv id t.
Proof.
  intros Hu Hperm id t. unfold raw_cells. destruct (nth_error lv t) as [w|]; [|reflexivity].
  assert (Hu' : unique_index df').
  { unfold unique_index in *. eapply Permutation_NoDup; [apply Permutation_map, Hperm|exact Hu]. }
  assert (HP : forall r : drow V, Z.eqb (dr_id r) id && Z.eqb (dr_period r) w = true <->
                                  key r = (id, w)).
  { intros y. unfold key. rewrite andb_true_iff, !Z.eqb_eq.
    split; [intros [-> ->]; reflexivity|intros [= -> ->]; auto]. }
  destruct (find (fun r => Z.eqb (dr_id r) id && Z.eqb (dr_period r) w) (fr_rows df)) as [r|] eqn:E.
  - apply find_some in E as [Hr E]. apply HP in E.
    rewrite (find_unique key _ (id, w) (fr_rows df') r HP Hu'); [reflexivity| |exact E].
    eapply Permutation_in; eauto.
  - destruct (find _ (fr_rows df')) as [r|] eqn:E'; [|reflexivity].
    apply find_some in E' as [Hr E'].
    apply (Permutation_in _ (Permutation_sym Hperm)) in Hr.
    apply (find_none _ _ E) in Hr. cbv beta in Hr. congruence.
Qed.

(** The order of the rows of the data set has no influence on the arrays (nor on
    errors). *)
Theorem C23_row_order {V} (one : V) veqb md p (df df' : frame V) est :
  process_model md = Ok p -> wf_frame df ->
  Permutation (fr_rows df) (fr_rows df') -> fr_columns df' = fr_columns df ->
  fr_id_level df' = fr_id_level df -> fr_period_level df' = fr_period_level df ->
  process_data one veqb df' (p_labels p) (p_update p) (p_anch p) est =
  process_data one veqb df (p_labels p) (p_update p) (p_anch p) est.
Proof.
  intros Hp Hdf Hperm Hcol Hil Hpl.
  assert (E : pre_process_data df' (l_periods (p_labels p)) =
              pre_process_data df (l_periods (p_labels p))).
  { assert (Hdf' : wf_frame df').
    { intros r Hr. rewrite Hil, Hpl. apply Hdf. eapply Permutation_in; [|exact Hr].
      now apply Permutation_sym. }
    set (ids := zsort_unique (map dr_id (fr_rows df))).
    set (lv := zsort_unique (fr_period_level df)).
    assert (Hids : ids_of df ids).
    { split; [apply zsort_unique_sorted|]. intros z. unfold ids. rewrite zsort_unique_In, in_map_iff.
      split; intros (r & H1 & H2); eauto. }
    assert (Hids' : ids_of df' ids).
    { split; [apply zsort_unique_sorted|]. intros z. rewrite (proj2 Hids z).
      split; intros (r & H1 & H2); exists r; (split; [|exact H2]).
      - eapply Permutation_in; eauto.
      - eapply Permutation_in; [apply Permutation_sym, Hperm|exact H1]. }
    assert (Hlv : levels_of df lv) by apply ascending_zsort.
    assert (Hlv' : levels_of df' lv).
    { unfold levels_of. rewrite Hpl. apply ascending_zsort. }
    destruct (p_labels_eq md p Hp) as (_ & _ & _ & -> & _).
    destruct (has_dup_key (encode df)) eqn:Ed.
    - assert (Hu : ~ unique_index df).
      { intros Hu. apply (encode_dup df lv Hdf Hlv) in Hu. congruence. }
      rewrite (pre_process_dup df lv Hdf Hlv _ Hu). apply (pre_process_dup df' lv Hdf' Hlv').
      intros Hu'. apply Hu. unfold unique_index in *.
      eapply Permutation_NoDup; [apply Permutation_map, Permutation_sym, Hperm|exact Hu'].
    - assert (Hu : unique_index df) by now apply (encode_dup df lv Hdf Hlv).
      assert (Hu' : unique_index df').
      { unfold unique_index in *. eapply Permutation_NoDup; [apply Permutation_map, Hperm|exact Hu]. }
      rewrite (pre_process_ok df ids lv Hdf Hids Hlv _ Hu).
      rewrite (pre_process_ok df' ids lv Hdf' Hids' Hlv' _ Hu').
      f_equal. unfold codes. rewrite Hil. unfold grid. apply flat_map_ext. intros i.
      apply map_ext. intros t. f_equal. unfold raw. rewrite Hil.
      destruct (nth_error _ i); [|reflexivity]. symmetry. now apply raw_cells_perm. }
  unfold process_data, prepare_data. rewrite E, Hcol. reflexivity.
Qed.
Print Assumptions C23_row_order.

(** ** C29 *)

Section Arrays.
  Context {V : Type}.
  Variable one : V.
  Variable veqb : V -> V -> bool.
  Hypothesis veqb_spec : forall x y, veqb x y = true <-> x = y.
  Variables (md : model_dict) (p : processed) (n : nat).
  Hypothesis Hwf : wf_dicts md.
  Hypothesis Hp : process_model md = Ok p.
  Hypothesis Hn : has_n_periods md n.
  Hypothesis Hclear : clear_outcomes md.
  Variable df : frame V.
  Variables ids lv : list Z.
  Hypothesis Hdf : wf_frame df.
  Hypothesis Hids : ids_of df ids.
  Hypothesis Hlv : levels_of df lv.
  Let run est := process_data one veqb df (p_labels p) (p_update p) (p_anch p) est.
  Let fil := filed one md n df lv.

  Lemma run_ok est ar : run est = Ok ar -> ar = the_arrays one md p n df ids lv est /\
    acceptable one md n df ids lv est.
  Proof.
    intros H. unfold run in H.
    destruct (process_cases one veqb veqb_spec md p n Hwf Hp Hn Hclear df ids lv Hdf Hids Hlv est)
      as [[Ha E]|[[_ E]|[(_ & _ & E)|[(_ & _ & _ & E)|(_ & _ & _ & _ & E)]]]];
      rewrite E in H; [|discriminate..].
    injection H as <-. split; [reflexivity|exact Ha].
  Qed.

  Lemma codes_nth i id :
    nth_error ids i = Some id ->
    nth_error (codes df ids) i = Some (code_of id (zsort_unique (fr_id_level df))).
  Proof. intros H. unfold codes. now rewrite nth_error_map, H. Qed.

  Lemma meas_entry est ar k t v i id :
    run est = Ok ar -> est = true -> nth_error (equations md n) k = Some (t, v) ->
    nth_error ids i = Some id -> exists w, entry (ar_meas ar) k i w /\ fil id t v w.
  Proof.
    intros H He Hk Hi. apply run_ok in H as [-> _]. subst est. cbn [ar_meas the_arrays].
    rewrite <- (equations_keys md p n Hwf Hp Hn) in Hk. rewrite nth_error_map in Hk.
    destruct (nth_error (p_update p) k) as [r|] eqn:Er; [|discriminate].
    injection Hk as <- <-. eexists. split.
    - eexists. split; [erewrite map_nth_error; [reflexivity|exact Er]|].
      erewrite map_nth_error; [reflexivity|]. exact (codes_nth i id Hi).
    - apply (final_cell_filed one md p n Hwf Hp Hn Hclear df ids lv Hdf Hids).
      eapply nth_error_In; eauto.
  Qed.

  Lemma var_entry vars C t j c i id :
    (forall id t x, In id ids -> fil id t x (C (code_of id (zsort_unique (fr_id_level df))) t x)) ->
    t < n -> nth_error vars j = Some c -> nth_error ids i = Some id ->
    exists w, entry3 (map (fun t => map (fun i => map (C i t) vars) (codes df ids)) (range n)) t i j w
              /\ fil id t c w.
  Proof.
    intros HC Ht Hj Hi. eexists. split.
    - eexists. split; [erewrite map_nth_error; [reflexivity|now apply nth_error_range]|].
      eexists. split; [erewrite map_nth_error; [reflexivity|exact (codes_nth i id Hi)]|].
      erewrite map_nth_error; [reflexivity|exact Hj].
    - apply HC. eapply nth_error_In; eauto.
  Qed.
End Arrays.

(** The values that are handed to the filter, given the value [x] the data set
    prescribes: missing if the observation is discarded. *)
Definition handed_over {V} (one : V) md n (df : frame V) lv id t x (w : option V) : Prop :=
  (discarded one md n df lv id t -> w = None) /\
  (~ discarded one md n df lv id t -> w = value one md df lv id t x).

(** Controls and observed factors, for estimation and simulation: if data processing
    succeeds, the arrays have one entry per period, individual and variable, and every
    entry is the value of the variable with that label (see [value]: one for the
    constant), unless the observation is discarded (see C26). *)
Theorem C29_controls_and_observed_by_label {V} (one : V) veqb md p n df ids lv est ar :
  (forall x y, veqb x y = true <-> x = y) ->
  data_setting md p n df ids lv ->
  process_data one veqb df (p_labels p) (p_update p) (p_anch p) est = Ok ar ->
  (length (ar_controls ar) = n /\
   (forall sheet, In sheet (ar_controls ar) -> length sheet = length ids /\
      forall row, In row sheet -> length row = S (length (controls_of md))) /\
   forall t i id j c, t < n -> nth_error ids i = Some id ->
     nth_error ("constant" :: controls_of md) j = Some c ->
     exists w, entry3 (ar_controls ar) t i j w /\ handed_over one md n df lv id t c w) /\
  (length (ar_observed ar) = n /\
   (forall sheet, In sheet (ar_observed ar) -> length sheet = length ids /\
      forall row, In row sheet -> length row = length (observed_of md)) /\
   forall t i id j f, t < n -> nth_error ids i = Some id ->
     nth_error (observed_of md) j = Some f ->
     exists w, entry3 (ar_observed ar) t i j w /\ handed_over one md n df lv id t f w).
Proof.
  intros Heq (Hwf & Hp & Hn & Hcl & Hdf & Hids & Hlv) Hrun.
  pose proof (final_cell_filed one md p n Hwf Hp Hn Hcl df ids lv Hdf Hids) as Hcell.
  destruct (run_ok one veqb Heq md p n Hwf Hp Hn Hcl df ids lv Hdf Hids Hlv est ar Hrun) as [-> _].
  assert (Hshape : forall C vars,
    length (map (fun t => map (fun i => map (C i t) vars) (codes df ids)) (range n)) = n /\
    forall sheet : list (list (option V)),
      In sheet (map (fun t => map (fun i => map (C i t) vars) (codes df ids)) (range n)) ->
      length sheet = length ids /\ forall row, In row sheet -> length row = @length string vars).
  { intros C vars. split.
    - rewrite map_length. unfold range. apply seq_length.
    - intros sheet Hs. apply in_map_iff in Hs as (t & <- & _). split.
      + unfold codes. now rewrite !map_length.
      + intros row Hr. apply in_map_iff in Hr as (i & <- & _). apply map_length. }
  split.
  - cbn [ar_controls the_arrays]. split; [apply Hshape|]. split.
    + intros sheet Hs. exact (proj2 (Hshape (final_cell one md p df lv) ("constant" :: controls_of md)) sheet Hs).
    + intros t i id j c Ht Hi Hj.
      eapply (var_entry one md n df ids lv); [|exact Ht|exact Hj|exact Hi].
      intros id' t' x Hid. apply Hcell, Hid.
  - cbn [ar_observed the_arrays]. split; [apply Hshape|]. split.
    + intros sheet Hs. exact (proj2 (Hshape (final_cell one md p df lv) (observed_of md)) sheet Hs).
    + intros t i id j c Ht Hi Hj.
      eapply (var_entry one md n df ids lv); [|exact Ht|exact Hj|exact Hi].
      intros id' t' x Hid. apply Hcell, Hid.
Qed.
Print Assumptions C29_controls_and_observed_by_label.

(** If data processing succeeds, the arrays have one entry per equation resp.
    period, individual and variable, and every entry is the value of the variable
    with that label (see [value]: the outcome for anchoring equations and one for
    the constant), unless the observation is discarded (see C26). *)
Theorem C29_arrays_by_label {V} (one : V) veqb md p n df ids lv ar :
  (forall x y, veqb x y = true <-> x = y) ->
  data_setting md p n df ids lv ->
  process_data one veqb df (p_labels p) (p_update p) (p_anch p) true = Ok ar ->
  (length (ar_meas ar) = length (equations md n) /\
   (forall row, In row (ar_meas ar) -> length row = length ids) /\
   forall k t v i id, nth_error (equations md n) k = Some (t, v) -> nth_error ids i = Some id ->
     exists w, entry (ar_meas ar) k i w /\ handed_over one md n df lv id t v w) /\
  (length (ar_controls ar) = n /\
   (forall sheet, In sheet (ar_controls ar) -> length sheet = length ids /\
      forall row, In row sheet -> length row = S (length (controls_of md))) /\
   forall t i id j c, t < n -> nth_error ids i = Some id ->
     nth_error ("constant" :: controls_of md) j = Some c ->
     exists w, entry3 (ar_controls ar) t i j w /\ handed_over one md n df lv id t c w) /\
  (length (ar_observed ar) = n /\
   (forall sheet, In sheet (ar_observed ar) -> length sheet = length ids /\
      forall row, In row sheet -> length row = length (observed_of md)) /\
   forall t i id j f, t < n -> nth_error ids i = Some id ->
     nth_error (observed_of md) j = Some f ->
     exists w, entry3 (ar_observed ar) t i j w /\ handed_over one md n df lv id t f w).
Proof.
  intros Heq (Hwf & Hp & Hn & Hcl & Hdf & Hids & Hlv) Hrun.
  assert (Hmeas : forall k t v i id, nth_error (equations md n) k = Some (t, v) ->
            nth_error ids i = Some id ->
            exists w, entry (ar_meas ar) k i w /\ handed_over one md n df lv id t v w).
  { intros k t v i id Hk Hi.
    exact (meas_entry one veqb Heq md p n Hwf Hp Hn Hcl df ids lv Hdf Hids Hlv true ar k t v i id
             Hrun eq_refl Hk Hi). }
  split; [|exact (C29_controls_and_observed_by_label one veqb md p n df ids lv true ar Heq
             (conj Hwf (conj Hp (conj Hn (conj Hcl (conj Hdf (conj Hids Hlv)))))) Hrun)].
  destruct (run_ok one veqb Heq md p n Hwf Hp Hn Hcl df ids lv Hdf Hids Hlv true ar Hrun) as [-> _].
  split; [|split; [|exact Hmeas]].
  - cbn [ar_meas the_arrays]. rewrite map_length, <- (equations_keys md p n Hwf Hp Hn).
    now rewrite map_length.
  - intros row Hr. cbn [ar_meas the_arrays] in Hr. apply in_map_iff in Hr as (r & <- & _).
    unfold codes. now rewrite !map_length.
Qed.
Print Assumptions C29_arrays_by_label.

(** ** An example data set *)

Definition cells (l : list (string * Z)) (x : string) : option Z := dget l x.

(** Four individuals and three periods (10, 20, 30) for [small_model], rows in
    random order. Individual 4 misses the control x1 in the first two periods and
    has the measurement a in the first one; individual 3 has no measurements in the
    last period; individual 7 misses x1 in the last period. *)
Definition ex_df : frame Z :=
  mk_frame ["a"; "b"; "c"; "s"; "Q1"; "Q2"; "x1"; "inc"; "unused"] [3; 4; 5; 7]%Z [10; 20; 30]%Z
    [mk_drow 7 10 (cells [("a", 1); ("s", 2); ("c", 3); ("Q1", 4); ("Q2", 5); ("x1", 6); ("inc", 7)]);
     mk_drow 3 20 (cells [("a", 2); ("c", 3); ("Q1", 8); ("Q2", 5); ("x1", 6); ("inc", 1)]);
     mk_drow 4 30 (cells [("a", 8); ("b", 3); ("Q1", 7); ("Q2", 2); ("x1", 1); ("inc", 8)]);
     mk_drow 3 10 (cells [("a", 7); ("s", 1); ("c", 9); ("Q2", 3); ("x1", 2); ("inc", 2)]);
     mk_drow 5 10 (cells [("a", 7); ("s", 1); ("c", 9); ("Q1", 3); ("Q2", 3); ("x1", 2); ("inc", 2)]);
     mk_drow 4 20 (cells [("inc", 8)]);
     mk_drow 5 30 (cells [("a", 4); ("b", 2); ("Q1", 5); ("Q2", 3); ("x1", 4); ("inc", 3)]);
     mk_drow 3 30 (cells [("x1", 4); ("inc", 3)]);
     mk_drow 7 30 (cells [("a", 5); ("inc", 4)]);
     mk_drow 4 10 (cells [("inc", 8); ("a", 3)]);
     mk_drow 5 20 (cells [("a", 3); ("c", 5); ("Q1", 6); ("Q2", 7); ("x1", 6); ("inc", 5)]);
     mk_drow 7 20 (cells [("a", 4); ("c", 6); ("Q1", 7); ("Q2", 8); ("x1", 6); ("inc", 6)])]%Z.

Definition ex_run (est : bool) : result (arrays Z) :=
  process_data 1%Z Z.eqb ex_df (p_labels small_p) (p_update small_p) (p_anch small_p) est.

Definition ex_ids : list Z := [3; 4; 5; 7]%Z.
Definition ex_lv : list Z := [10; 20; 30]%Z.

Lemma Zeqb_spec : forall x y, Z.eqb x y = true <-> x = y.
Proof. exact Z.eqb_eq. Qed.

Ltac solve_sorted := repeat (constructor; try lia).

Lemma ex_setting : data_setting small_model small_p 3 ex_df ex_ids ex_lv.
Proof.
  split; [exact small_model_wf|]. split; [exact small_model_accepted|].
  split; [exact small_model_periods|]. split; [|split; [|split]].
  - split.
    + simpl. repeat constructor; simpl; intuition discriminate.
    + intros fo [<-|[<-|[]]]; (split; [discriminate|simpl; intuition discriminate]).
  - intros r Hr. repeat (destruct Hr as [<-|Hr]; [simpl; tauto|]). destruct Hr.
  - split; [solve_sorted|]. intros z. unfold ex_ids. split.
    + intros [<-|[<-|[<-|[<-|[]]]]].
      * exists (nth 1 (fr_rows ex_df) (mk_drow 0 0 (cells []))). split; [apply nth_In; simpl; lia|reflexivity].
      * exists (nth 2 (fr_rows ex_df) (mk_drow 0 0 (cells []))). split; [apply nth_In; simpl; lia|reflexivity].
      * exists (nth 4 (fr_rows ex_df) (mk_drow 0 0 (cells []))). split; [apply nth_In; simpl; lia|reflexivity].
      * exists (nth 0 (fr_rows ex_df) (mk_drow 0 0 (cells []))). split; [apply nth_In; simpl; lia|reflexivity].
    + intros (r & Hr & <-). repeat (destruct Hr as [<-|Hr]; [simpl; tauto|]). destruct Hr.
  - split; [solve_sorted|]. intros z. reflexivity.
Qed.

Lemma ex_unique : unique_index ex_df.
Proof. unfold unique_index. simpl. repeat constructor; simpl; intuition discriminate. Qed.

Definition ex_arrays : arrays Z := Eval vm_compute in get_ok (ex_run true) (mk_arrays [] [] []).
Lemma ex_ok : ex_run true = Ok ex_arrays.
Proof. vm_compute. reflexivity. Qed.

(** Individual 4 has no observation in the second period of this data set, and
    there are more periods than the model has. *)
Definition unbalanced_df : frame Z :=
  mk_frame ["a"] [3; 4]%Z [10; 20; 30]%Z
    [mk_drow 4 10 (cells [("a", 1%Z)]); mk_drow 3 20 (cells [("a", 2%Z)]);
     mk_drow 3 10 (cells [("a", 3%Z)]); mk_drow 4 30 (cells [("a", 4%Z)])].

Example C22_nonvacuous :
  wf_frame unbalanced_df /\ ids_of unbalanced_df [3; 4]%Z /\ levels_of unbalanced_df [10; 20; 30]%Z /\
  unique_index unbalanced_df /\
  match pre_process_data unbalanced_df (range 2) with
  | Ok rows => map (fun q => pr_cells q "a") rows = [Some 3; Some 2; Some 1; None]%Z
  | Err _ => False
  end.
Proof.
  split; [|split; [|split; [|split; [|reflexivity]]]].
  - intros r Hr. repeat (destruct Hr as [<-|Hr]; [simpl; tauto|]). destruct Hr.
  - split; [solve_sorted|]. intros z. split.
    + intros [<-|[<-|[]]].
      * exists (nth 1 (fr_rows unbalanced_df) (mk_drow 0 0 (cells []))). split; [apply nth_In; simpl; lia|reflexivity].
      * exists (nth 0 (fr_rows unbalanced_df) (mk_drow 0 0 (cells []))). split; [apply nth_In; simpl; lia|reflexivity].
    + intros (r & Hr & <-). repeat (destruct Hr as [<-|Hr]; [simpl; tauto|]). destruct Hr.
  - split; [solve_sorted|]. intros z. reflexivity.
  - unfold unique_index. simpl. repeat constructor; simpl; intuition discriminate.
Qed.

Example C23_nonvacuous :
  process_model small_model = Ok small_p /\ wf_frame ex_df /\
  Permutation (fr_rows ex_df) (rev (fr_rows ex_df)) /\
  process_data 1%Z Z.eqb (mk_frame (fr_columns ex_df) (fr_id_level ex_df) (fr_period_level ex_df)
                            (rev (fr_rows ex_df)))
    (p_labels small_p) (p_update small_p) (p_anch small_p) true = Ok ex_arrays.
Proof.
  split; [exact small_model_accepted|]. split; [apply ex_setting|].
  split; [apply Permutation_rev|vm_compute; reflexivity].
Qed.

Lemma ex_discarded : discarded 1%Z small_model 3 ex_df ex_lv 4%Z 0.
Proof.
  split.
  - exists "x1". split; [now left|reflexivity].
  - exists "a". split; [vm_compute; tauto|discriminate].
Qed.

Example C29_nonvacuous :
  data_setting small_model small_p 3 ex_df ex_ids ex_lv /\ ex_run true = Ok ex_arrays /\
  nth_error (equations small_model 3) 3 = Some (0, "Q1_cog") /\
  entry (ar_meas ex_arrays) 3 2 (Some 3%Z) /\ entry3 (ar_controls ex_arrays) 2 0 1 (Some 4%Z) /\
  value 1%Z small_model ex_df ex_lv 5%Z 0 "Q1_cog" = Some 3%Z /\
  value 1%Z small_model ex_df ex_lv 5%Z 0 "constant" = Some 1%Z /\
  discarded 1%Z small_model 3 ex_df ex_lv 4%Z 0.
Proof.
  split; [exact ex_setting|]. split; [exact ex_ok|]. split; [reflexivity|].
  split; [eexists; split; reflexivity|].
  split; [eexists; split; [reflexivity|eexists; split; reflexivity]|].
  split; [reflexivity|]. split; [reflexivity|exact ex_discarded].
Qed.

(** ** C24 *)

(** Partial: under the hypothesis that the index carries no unused period levels.
    The observation of the [t]-th smallest period of the data set ends up in model
    period [t]; in particular the first period is model period 0. *)
Theorem C24_periods_from_zero_partial {V} (df : frame V) ids periods n rows :
  wf_frame df -> ids_of df ids -> no_unused_periods df -> periods_of df periods ->
  pre_process_data df (range n) = Ok rows ->
  forall k t r, In r (fr_rows df) -> nth_error ids k = Some (dr_id r) ->
    nth_error periods t = Some (dr_period r) -> t < n ->
    exists q, nth_error rows (k * n + t) = Some q /\ pr_period q = t /\ pr_cells q = dr_cells r.
Proof.
  intros Hdf Hids Hno Hper Hpre k t r Hr Hk Ht Hlt.
  assert (Hlv : levels_of df periods).
  { destruct Hper as [Hs Hin]. split; [exact Hs|]. intros z. rewrite Hin. split.
    - intros (r' & Hr' & <-). now apply Hdf.
    - apply Hno. }
  destruct (C22_balanced_panel df ids periods n Hdf Hids Hlv) as [H Hdup].
  assert (Hu : unique_index df).
  { destruct (has_dup_key (encode df)) eqn:E.
    - assert (Hu : ~ unique_index df).
      { intros Hu. apply (encode_dup df periods Hdf Hlv) in Hu. congruence. }
      rewrite (Hdup Hu) in Hpre. discriminate.
    - now apply (encode_dup df periods Hdf Hlv). }
  destruct (H Hu) as (rows' & num & Hok & _ & _ & Hall). rewrite Hpre in Hok.
  injection Hok as <-. destruct (Hall k t _ Hk Hlt) as (q & Hq & _ & Hqt & Hc & _).
  exists q. split; [exact Hq|]. split; [exact Hqt|]. now apply Hc.
Qed.
Print Assumptions C24_periods_from_zero_partial.

Example C24_nonvacuous :
  wf_frame unbalanced_df /\ no_unused_periods unbalanced_df /\
  periods_of unbalanced_df [10; 20; 30]%Z /\ is_ok (pre_process_data unbalanced_df (range 2)) = true.
Proof.
  split; [apply C22_nonvacuous|].
  assert (H : no_unused_periods unbalanced_df).
  { intros z [<-|[<-|[<-|[]]]].
    - exists (nth 0 (fr_rows unbalanced_df) (mk_drow 0 0 (cells []))). split; [apply nth_In; simpl; lia|reflexivity].
    - exists (nth 1 (fr_rows unbalanced_df) (mk_drow 0 0 (cells []))). split; [apply nth_In; simpl; lia|reflexivity].
    - exists (nth 3 (fr_rows unbalanced_df) (mk_drow 0 0 (cells []))). split; [apply nth_In; simpl; lia|reflexivity]. }
  split; [exact H|]. split; [|reflexivity].
  split; [solve_sorted|]. intros z. split; [apply H|].
  intros (r & Hr & <-). repeat (destruct Hr as [<-|Hr]; [simpl; tauto|]). destruct Hr.
Qed.

(** Without that hypothesis the claim is false: the first period that occurs in
    this data set is 20, but the index still knows period 10 (for example because
    the rows of period 10 were dropped by a query). All values of model period 0
    are missing. *)
Definition filtered_df : frame Z :=
  mk_frame ["a"] [3; 4]%Z [10; 20; 30]%Z
    [mk_drow 3 20 (cells [("a", 1%Z)]); mk_drow 4 20 (cells [("a", 2%Z)]);
     mk_drow 3 30 (cells [("a", 3%Z)]); mk_drow 4 30 (cells [("a", 4%Z)])].

Theorem C24_refuted :
  wf_frame filtered_df /\ unique_index filtered_df /\ periods_of filtered_df [20; 30]%Z /\
  match pre_process_data filtered_df (range 2) with
  | Ok rows => map (fun q => (pr_period q, pr_cells q "a")) rows =
               [(0, None); (1, Some 1%Z); (0, None); (1, Some 2%Z)]
  | Err _ => False
  end.
Proof.
  split; [|split; [|split; [|reflexivity]]].
  - intros r Hr. repeat (destruct Hr as [<-|Hr]; [simpl; tauto|]). destruct Hr.
  - unfold unique_index. simpl. repeat constructor; simpl; intuition discriminate.
  - split; [solve_sorted|]. intros z. split.
    + intros [<-|[<-|[]]].
      * exists (nth 0 (fr_rows filtered_df) (mk_drow 0 0 (cells []))). split; [apply nth_In; simpl; lia|reflexivity].
      * exists (nth 2 (fr_rows filtered_df) (mk_drow 0 0 (cells []))). split; [apply nth_In; simpl; lia|reflexivity].
    + intros (r & Hr & <-). repeat (destruct Hr as [<-|Hr]; [simpl; tauto|]). destruct Hr.
Qed.
Print Assumptions C24_refuted.

(** ** C25 *)

Lemma entry_fun {A} (m : list (list A)) i j x y : entry m i j x -> entry m i j y -> x = y.
Proof. intros (r & H1 & H2) (r' & H1' & H2'). congruence. Qed.

Lemma entry3_fun {A} (m : list (list (list A))) i j k x y :
  entry3 m i j k x -> entry3 m i j k y -> x = y.
Proof.
  intros (r & H1 & H2) (r' & H1' & H2'). rewrite H1 in H1'. injection H1' as <-.
  eapply entry_fun; eauto.
Qed.

(** Whenever a measurement is observed in the arrays, so are all controls of that
    individual and period. *)
Theorem C25_no_measurement_without_controls {V} (one : V) veqb md p n df ids lv ar :
  (forall x y, veqb x y = true <-> x = y) ->
  data_setting md p n df ids lv ->
  process_data one veqb df (p_labels p) (p_update p) (p_anch p) true = Ok ar ->
  forall k t v i x j w,
    nth_error (equations md n) k = Some (t, v) -> entry (ar_meas ar) k i (Some x) ->
    entry3 (ar_controls ar) t i j w -> w <> None.
Proof.
  intros Heq Hset Hrun k t v i x j w Hk Hx Hw Hnone. subst w.
  destruct (C29_arrays_by_label one veqb md p n df ids lv ar Heq Hset Hrun)
    as ((Hl1 & Hl2 & Hm) & (Hl3 & Hl4 & Hc) & _).
  destruct Hx as (mrow & Hmr & Hx).
  assert (Hi : i < length ids).
  { rewrite <- (Hl2 mrow); [|eapply nth_error_In; eauto]. apply nth_error_Some. congruence. }
  destruct (nth_error ids i) as [id|] eqn:Ei; [|apply nth_error_None in Ei; lia].
  assert (Hx' : entry (ar_meas ar) k i (Some x)) by (exists mrow; auto).
  destruct (Hm k t v i id Hk Ei) as (wx & Hwx & Hho).
  rewrite (entry_fun _ _ _ _ _ Hwx Hx') in Hho.
  assert (Ht : t < n).
  { destruct Hset as (_ & _ & _ & _). apply (equations_period md n t v).
    eapply nth_error_In; eauto. }
  assert (Hw' := Hw). destruct Hw as (sheet & Hs & row & Hr & Hj).
  assert (Hjl : j < S (length (controls_of md))).
  { destruct (Hl4 sheet (nth_error_In _ _ Hs)) as [_ H].
    rewrite <- (H row (nth_error_In _ _ Hr)). apply nth_error_Some. congruence. }
  destruct (nth_error ("constant" :: controls_of md) j) as [c|] eqn:Ec;
    [|apply nth_error_None in Ec; simpl in Ec; lia].
  destruct (Hc t i id j c Ht Ei Ec) as (wc & Hwc & Hhc).
  rewrite (entry3_fun _ _ _ _ _ _ Hwc Hw') in Hhc.
  assert (Hnd : ~ discarded one md n df lv id t).
  { intros Hd. apply Hho in Hd. discriminate. }
  pose proof (proj2 Hho Hnd) as Ex. pose proof (proj2 Hhc Hnd) as Enone.
  apply nth_error_In in Ec. destruct Ec as [<-|Ec].
  - unfold value, data_value in Enone.
    destruct (find _ (outcomes_of md)) as [fo|] eqn:Ef; [|discriminate].
    apply find_some in Ef as [Hin Ef]. apply String.eqb_eq in Ef.
    apply (constant_not_copy (outcomes_of md)). rewrite Ef. now apply in_map.
  - apply Hnd. split; [eauto|]. exists v. split; [eapply nth_error_In; eauto|congruence].
Qed.
Print Assumptions C25_no_measurement_without_controls.

Example C25_nonvacuous :
  data_setting small_model small_p 3 ex_df ex_ids ex_lv /\ ex_run true = Ok ex_arrays /\
  nth_error (equations small_model 3) 9 = Some (2, "a") /\
  entry (ar_meas ex_arrays) 9 1 (Some 8%Z) /\ entry3 (ar_controls ex_arrays) 2 1 1 (Some 1%Z).
Proof.
  split; [exact ex_setting|]. split; [exact ex_ok|]. split; [reflexivity|].
  split; [eexists; split; reflexivity|eexists; split; [reflexivity|eexists; split; reflexivity]].
Qed.

(** ** C26 *)

(** Of an observation that has a missing control although some variable of the
    period is observed, every entry in the three arrays is missing; every entry of
    all other observations is the value in the data set. *)
Theorem C26_only_incomplete_discarded {V} (one : V) veqb md p n df ids lv ar :
  (forall x y, veqb x y = true <-> x = y) ->
  data_setting md p n df ids lv ->
  process_data one veqb df (p_labels p) (p_update p) (p_anch p) true = Ok ar ->
  forall i id t, nth_error ids i = Some id -> t < n ->
  let incomplete := exists c, In c (controls_of md) /\ value one md df lv id t c = None in
  let measured := exists v, In (t, v) (equations md n) /\ value one md df lv id t v <> None in
  (incomplete /\ measured ->
   (forall k v w, nth_error (equations md n) k = Some (t, v) -> entry (ar_meas ar) k i w -> w = None) /\
   (forall j w, entry3 (ar_controls ar) t i j w -> w = None) /\
   (forall j w, entry3 (ar_observed ar) t i j w -> w = None)) /\
  (~ (incomplete /\ measured) ->
   (forall k v w, nth_error (equations md n) k = Some (t, v) -> entry (ar_meas ar) k i w ->
      w = value one md df lv id t v) /\
   (forall j c w, nth_error ("constant" :: controls_of md) j = Some c ->
      entry3 (ar_controls ar) t i j w -> w = value one md df lv id t c) /\
   (forall j f w, nth_error (observed_of md) j = Some f ->
      entry3 (ar_observed ar) t i j w -> w = value one md df lv id t f)).
Proof.
  intros Heq Hset Hrun i id t Hi Ht inc mea.
  destruct (C29_arrays_by_label one veqb md p n df ids lv ar Heq Hset Hrun)
    as ((Hl1 & Hl2 & Hm) & (Hl3 & Hl4 & Hc) & (Hl5 & Hl6 & Ho)).
  assert (Hlab : forall (m : list (list (list (option V)))) vars j w,
    (forall sheet, In sheet m -> length sheet = length ids /\
      forall row, In row sheet -> length row = @length string vars) ->
    entry3 m t i j w -> exists c, nth_error vars j = Some c).
  { intros m vars j w Hlen (sheet & Hs & row & Hr & Hj).
    destruct (Hlen sheet (nth_error_In _ _ Hs)) as [_ H].
    specialize (H row (nth_error_In _ _ Hr)).
    destruct (nth_error vars j) as [c|] eqn:E; [eauto|]. apply nth_error_None in E.
    assert (j < length row) by (apply nth_error_Some; congruence). lia. }
  split; intros Hd.
  - split; [|split].
    + intros k v w Hk Hw. destruct (Hm k t v i id Hk Hi) as (w' & Hw' & H & _).
      rewrite (entry_fun _ _ _ _ _ Hw Hw'). now apply H.
    + intros j w Hw. destruct (Hlab _ ("constant" :: controls_of md) j w Hl4 Hw) as [c Ec].
      destruct (Hc t i id j c Ht Hi Ec) as (w' & Hw' & H & _).
      rewrite (entry3_fun _ _ _ _ _ _ Hw Hw'). now apply H.
    + intros j w Hw. destruct (Hlab _ (observed_of md) j w Hl6 Hw) as [c Ec].
      destruct (Ho t i id j c Ht Hi Ec) as (w' & Hw' & H & _).
      rewrite (entry3_fun _ _ _ _ _ _ Hw Hw'). now apply H.
  - split; [|split].
    + intros k v w Hk Hw. destruct (Hm k t v i id Hk Hi) as (w' & Hw' & _ & H).
      rewrite (entry_fun _ _ _ _ _ Hw Hw'). now apply H.
    + intros j c w Ec Hw. destruct (Hc t i id j c Ht Hi Ec) as (w' & Hw' & _ & H).
      rewrite (entry3_fun _ _ _ _ _ _ Hw Hw'). now apply H.
    + intros j c w Ec Hw. destruct (Ho t i id j c Ht Hi Ec) as (w' & Hw' & _ & H).
      rewrite (entry3_fun _ _ _ _ _ _ Hw Hw'). now apply H.
Qed.
Print Assumptions C26_only_incomplete_discarded.

(** Both cases occur in the example: individual 4 in the first period is
    discarded; in the second period it misses a control but has no measurement. *)
Example C26_nonvacuous :
  data_setting small_model small_p 3 ex_df ex_ids ex_lv /\ ex_run true = Ok ex_arrays /\
  discarded 1%Z small_model 3 ex_df ex_lv 4%Z 0 /\
  value 1%Z small_model ex_df ex_lv 4%Z 1 "x1" = None /\
  ~ discarded 1%Z small_model 3 ex_df ex_lv 4%Z 1.
Proof.
  split; [exact ex_setting|]. split; [exact ex_ok|]. split; [exact ex_discarded|].
  split; [reflexivity|]. intros [_ (v & Hv & Hnone)].
  assert (E : forallb (fun tv => negb (fst tv =? 1) ||
     is_null (value 1%Z small_model ex_df ex_lv 4%Z 1 (snd tv))) (equations small_model 3) = true)
    by (vm_compute; reflexivity).
  rewrite forallb_forall in E. specialize (E _ Hv). simpl fst in E. cbn [Nat.eqb negb orb] in E.
  apply is_null_spec in E. contradiction.
Qed.

(** ** C27 *)

(** Partial: exactly the observations that are discarded because of missing
    controls have missing observed factors. The full claim would be that there are
    none. *)
Theorem C27_observed_factors_complete_partial {V} (one : V) veqb md p n df ids lv ar :
  (forall x y, veqb x y = true <-> x = y) ->
  data_setting md p n df ids lv ->
  process_data one veqb df (p_labels p) (p_update p) (p_anch p) true = Ok ar ->
  forall t i id j f w, t < n -> nth_error ids i = Some id -> nth_error (observed_of md) j = Some f ->
    entry3 (ar_observed ar) t i j w -> (w = None <-> discarded one md n df lv id t).
Proof.
  intros Heq Hset Hrun t i id j f w Ht Hi Hj Hw.
  destruct (C26_only_incomplete_discarded one veqb md p n df ids lv ar Heq Hset Hrun i id t Hi Ht)
    as [H1 H2].
  destruct (C29_arrays_by_label one veqb md p n df ids lv ar Heq Hset Hrun) as (_ & _ & _ & _ & Ho).
  destruct (Ho t i id j f Ht Hi Hj) as (w' & Hw' & Hd & Hnd).
  pose proof (entry3_fun _ _ _ _ _ _ Hw Hw') as <-. split; [|exact Hd].
  intros ->. destruct Hset as (Hwf & Hp & Hn & Hcl & Hdf & Hids & Hlv).
  destruct (run_ok one veqb Heq md p n Hwf Hp Hn Hcl df ids lv Hdf Hids Hlv true ar Hrun)
    as [_ (_ & _ & Hnp & _)].
  destruct (is_problematic ("constant" :: controls_of md) (p_update p)
      (mk_prow (code_of id (zsort_unique (fr_id_level df))) t
         (copies (outcomes_of md) (set_fun "constant" (Some one)
            (raw df lv (code_of id (zsort_unique (fr_id_level df))) t))))) eqn:E.
  - apply (problematic_spec one md p n Hwf Hp Hn Hcl df ids lv Hdf Hids) in E; [exact E|].
    eapply nth_error_In; eauto.
  - exfalso. assert (Hnd' : ~ discarded one md n df lv id t).
    { intros Hd'.
      apply (problematic_spec one md p n Hwf Hp Hn Hcl df ids lv Hdf Hids) in Hd';
        [congruence|]. eapply nth_error_In; eauto. }
    specialize (Hnd Hnd'). apply (Hnp t f HasMissings Ht).
    destruct (no_problem_columns one md p n Hp Hn df ids lv true Hnp) as (_ & Hav & _).
    apply observed_incomplete with id; [eapply nth_error_In; eauto|apply Hav; eapply nth_error_In; eauto|
      eapply nth_error_In; eauto|now symmetry].
Qed.
Print Assumptions C27_observed_factors_complete_partial.

(** The full claim is false: the data check passes for the example, but the
    observed factor of individual 4 in the first period is missing in the array. *)
Theorem C27_refuted :
  ex_run true = Ok ex_arrays /\ entry3 (ar_observed ex_arrays) 0 1 0 None /\
  value 1%Z small_model ex_df ex_lv 4%Z 0 "inc" = Some 8%Z.
Proof.
  split; [exact ex_ok|]. split; [|reflexivity].
  eexists; split; [reflexivity|eexists; split; reflexivity].
Qed.
Print Assumptions C27_refuted.

Example C27_nonvacuous :
  data_setting small_model small_p 3 ex_df ex_ids ex_lv /\ ex_run true = Ok ex_arrays /\
  entry3 (ar_observed ex_arrays) 1 1 0 (Some 8%Z) /\ entry3 (ar_observed ex_arrays) 0 1 0 None.
Proof.
  split; [exact ex_setting|]. split; [exact ex_ok|].
  split; (eexists; split; [reflexivity|eexists; split; reflexivity]).
Qed.

(** ** C28 *)

(** Data processing succeeds exactly if the index is unique, the anchoring
    outcomes are in the data set, there is no problem in the sense of
    [has_problem] and all variables of equations are in the data set (in
    estimation the latter is one of the problems). The report lists exactly the
    problems. A duplicate index or a problem raises ValueError; a missing outcome
    or, in simulation, a missing measurement raises KeyError. *)
Theorem C28_check_exact {V} (one : V) veqb md p n df ids lv est :
  (forall x y, veqb x y = true <-> x = y) ->
  data_setting md p n df ids lv ->
  let run := process_data one veqb df (p_labels p) (p_update p) (p_anch p) est in
  let outcomes := forall f o, anchored md f o -> In o (fr_columns df) in
  let problem := exists t x pr, t < n /\ has_problem one md n df ids lv est t x pr in
  let measured := forall t v, In (t, v) (equations md n) -> available md df v in
  ((exists ar, run = Ok ar) <-> unique_index df /\ outcomes /\ ~ problem /\ measured) /\
  (run = Err ValueError <-> ~ unique_index df \/ (outcomes /\ problem)) /\
  (run = Err KeyError <-> unique_index df /\ (~ outcomes \/ (~ problem /\ ~ measured))) /\
  (unique_index df -> outcomes -> exists columns rows,
     prepare_data one df (p_labels p) (p_anch p) = Ok (columns, rows) /\
     forall t x pr, In (t, x, pr) (data_report veqb columns rows (p_update p) (p_labels p) est) <->
                    t < n /\ has_problem one md n df ids lv est t x pr).
Proof.
  intros Heq (Hwf & Hp & Hn & Hcl & Hdf & Hids & Hlv) run outcomes problem measured.
  assert (Hout : outcomes <-> outcomes_present md df).
  { unfold outcomes, outcomes_present. split.
    - intros H [f o] Hin. apply (H f o). now apply anchored_outcomes.
    - intros H f o Ha. apply anchored_outcomes in Ha. now apply (H (f, o)). }
  assert (Hpr : ~ problem <-> no_problem one md n df ids lv est).
  { unfold problem, no_problem. split.
    - intros H t x pr Ht Hx. apply H. eauto 6.
    - intros H (t & x & pr & Ht & Hx). exact (H t x pr Ht Hx). }
  pose proof (process_cases one veqb Heq md p n Hwf Hp Hn Hcl df ids lv Hdf Hids Hlv est) as Hcases.
  fold run in Hcases.
  assert (Hlast : unique_index df -> outcomes -> exists columns rows,
     prepare_data one df (p_labels p) (p_anch p) = Ok (columns, rows) /\
     forall t x pr, In (t, x, pr) (data_report veqb columns rows (p_update p) (p_labels p) est) <->
                    t < n /\ has_problem one md n df ids lv est t x pr).
  { intros Hu Ho. apply Hout in Ho. eexists _, _.
    split; [exact (prepare_ok one md p n Hwf Hp Hn df ids lv Hdf Hids Hlv Hu Ho)|].
    intros t x pr.
    exact (report_spec one veqb Heq md p n Hwf Hp Hn Hcl df ids lv Hdf Hids est t x pr). }
  split; [|split; [|split; [|exact Hlast]]].
  - split.
    + intros [ar E].
      destruct Hcases as [[(A & B & C & D) _]|[[_ E']|[(_ & _ & E')|[(_ & _ & _ & E')|(_ & _ & _ & _ & E')]]]];
        [|congruence..].
      tauto.
    + intros (A & B & C & D). eexists.
      apply (process_ok one veqb Heq md p n Hwf Hp Hn Hcl df ids lv Hdf Hids Hlv est).
      split; [exact A|]. split; [now apply Hout|]. split; [now apply Hpr|exact D].
  - split.
    + intros E. destruct Hcases as [[_ E']|[[Hu _]|[(_ & _ & E')|[(_ & Ho & Hx & _)|(_ & _ & _ & _ & E')]]]];
        [congruence|now left|congruence|right; split; [now apply Hout|exact Hx]|congruence].
    + intros H. destruct Hcases as [[(A & B & C & D) _]|[[_ E']|[(Hu & Hno & _)|[(_ & _ & _ & E')|(Hu & Ho & Hnp & _)]]]];
        [|exact E'| |exact E'|]; exfalso; (destruct H as [H|[H1 H2]]; [contradiction|]).
      * apply Hpr in C. contradiction.
      * apply Hno. now apply Hout.
      * apply Hpr in Hnp. contradiction.
  - split.
    + intros E. destruct Hcases as [[_ E']|[[_ E']|[(Hu & Ho & _)|[(_ & _ & _ & E')|(Hu & Ho & Hnp & (t & v & Hv & Ha) & _)]]]];
        [congruence|congruence| |congruence|].
      * split; [exact Hu|]. left. intros H. apply Ho. now apply Hout.
      * split; [exact Hu|]. right. split; [now apply Hpr|]. intros H. exact (Ha (H t v Hv)).
    + intros [Hu H]. destruct Hcases as [[(A & B & C & D) _]|[[Hnu _]|[(_ & _ & E')|[(_ & Ho & Hx & _)|(_ & _ & _ & _ & E')]]]];
        [exfalso|contradiction|exact E'|exfalso|exact E'];
        (destruct H as [H|[H1 H2]]; [apply H; now apply Hout|]).
      * exact (H2 D). 
      * exact (H1 Hx).
Qed.
Print Assumptions C28_check_exact.

(** A data set with problems of all three kinds. *)
Definition bad_df : frame Z :=
  mk_frame ["a"; "b"; "c"; "Q1"; "Q2"; "x1"; "inc"] [3; 4]%Z [10; 20; 30]%Z
    [mk_drow 3 10 (cells [("a", 1); ("c", 2); ("Q1", 1); ("Q2", 1); ("x1", 1); ("inc", 1)]%Z);
     mk_drow 4 10 (cells [("a", 1); ("c", 3); ("Q1", 2); ("Q2", 2); ("x1", 1)]%Z)].

Example C28_nonvacuous :
  data_setting small_model small_p 3 ex_df ex_ids ex_lv /\ unique_index ex_df /\
  (exists ar, ex_run true = Ok ar) /\
  match prepare_data 1%Z bad_df (p_labels small_p) (p_anch small_p) with
  | Ok st => filter (fun e => fst (fst e) =? 0)
               (data_report Z.eqb (fst st) (snd st) (p_update small_p) (p_labels small_p) true)
             = [(0, "a", NoVariance); (0, "s", VariableMissing); (0, "inc", HasMissings)]
  | Err _ => False
  end.
Proof.
  split; [exact ex_setting|]. split; [exact ex_unique|].
  split; [eexists; exact ex_ok|vm_compute; reflexivity].
Qed.
