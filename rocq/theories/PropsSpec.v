(** Properties C01 - C08: processing of a model specification and the index of
    the parameters. *)
Require Import String Ascii Arith ZArith QArith Bool List Lia Sorted.
From Verif Require Import PyBase ListFacts StringFacts ModelSpec ProcessModel CheckModel SpecModel
  ProcessModelFacts AcceptFacts ParamsIndex SpecIndex IndexFacts SpecFacts ExampleModels.
Import ListNotations.
Open Scope string_scope.
Open Scope list_scope.
Open Scope nat_scope.

(** The example specifications have distinct dictionary keys. *)
Lemma small_model_wf : wf_dicts small_model.
Proof.
  split.
  - repeat constructor; simpl; intuition discriminate.
  - intros a o [= <-] [= <-]. repeat constructor; simpl; intuition discriminate.
Qed.

Lemma small_model_periods : has_n_periods small_model 3.
Proof.
  split.
  - eexists _, _. split; [left; reflexivity|reflexivity].
  - intros f fs [[= <- <-]|[[= <- <-]|[]]]; simpl; lia.
Qed.

Definition small_p : processed :=
  get_ok (process_model small_model)
    (mk_processed (mk_dims 0 0 0 0 0) (mk_labels [] [] [] [] [] [])
       (mk_anchinfo false [] [] false false false false)
       (process_estimation_options small_model) (mk_tinfo [] []) [] []).

Lemma small_model_accepted : process_model small_model = Ok small_p.
Proof. vm_compute. reflexivity. Qed.

(** ** C01 *)

(** The number of periods is the length of the longest measurement list, and
    shorter lists are equivalent to lists padded with empty lists: the processed
    model is the same, and one is rejected iff the other one is. *)
Theorem C01_number_of_periods md p :
  process_model md = Ok p -> has_n_periods md (n_periods (p_dims p)) /\
  l_periods (p_labels p) = seq 0 (n_periods (p_dims p)).
Proof.
  intros H. split; [apply (p_dims_eq md p H)|]. apply (p_labels_eq md p H).
Qed.

Theorem C01_padding md n p :
  wf_dicts md -> has_n_periods md n ->
  process_model (pad_measurements n md) = Ok p <-> process_model md = Ok p.
Proof. apply padding. Qed.

Example C01_nonvacuous :
  wf_dicts small_model /\ has_n_periods small_model 3 /\
  process_model small_model = Ok small_p /\ pad_measurements 3 small_model <> small_model.
Proof.
  split; [exact small_model_wf|]. split; [exact small_model_periods|].
  split; [exact small_model_accepted|]. discriminate.
Qed.

(** ** C02 *)

Theorem C02_rows_of_update_table md p :
  wf_dicts md -> process_model md = Ok p ->
  (* the rows, in order: first appearances of the equations as written down *)
  map u_key (p_update p)
    = first_appearances key_eq_dec (written_equations md (n_periods (p_dims p))) /\
  (* one row per (period, variable) *)
  NoDup (map u_key (p_update p)) /\
  (* which (period, variable) pairs occur *)
  (forall k v, In (k, v) (map u_key (p_update p)) <-> is_equation md k v) /\
  (* ordered by period *)
  StronglySorted (fun r s => u_period r <= u_period s) (p_update p) /\
  (* factor flags *)
  (forall r f, In r (p_update p) ->
     (u_flag r f = true <->
      measures md (u_period r) f (u_var r) \/ anchors md (u_period r) f (u_var r))).
Proof.
  intros Hwf Hp. destruct (process_update_table md p Hwf Hp) as [E Hn].
  assert (map u_key (p_update p)
    = first_appearances key_eq_dec (written_equations md (n_periods (p_dims p)))) as Hk.
  { rewrite E at 1. rewrite table_keys, events_keys. reflexivity. }
  split; [exact Hk|]. split; [rewrite E; apply NoDup_table_keys|].
  split; [now apply In_p_update_keys|]. split.
  - assert (StronglySorted (fun a b : nat * string => fst a <= fst b)
              (map u_key (p_update p))) as Hs.
    { rewrite Hk. apply first_appearances_sorted, written_equations_sorted. }
    revert Hs. generalize (p_update p) as u. induction u as [|r u IH]; intros Hs; [constructor|].
    simpl in Hs. inversion Hs as [|? ? Hs1 Hs2]; subst. constructor; [auto|].
    rewrite Forall_forall in *. intros s Hin. apply (Hs2 (u_key s)). now apply in_map.
  - intros r f Hr. now apply (p_update_flag md p).
Qed.

Example C02_nonvacuous :
  wf_dicts small_model /\ process_model small_model = Ok small_p /\
  map u_key (p_update small_p) =
    [(0, "a"); (0, "s"); (0, "c"); (0, "Q1_cog"); (0, "Q2_soc");
     (1, "a"); (1, "c"); (1, "Q1_cog"); (1, "Q2_soc");
     (2, "a"); (2, "b"); (2, "Q1_cog"); (2, "Q2_soc")].
Proof.
  split; [exact small_model_wf|]. split; [exact small_model_accepted|]. reflexivity.
Qed.

(** ** C03 *)

(** A row has purpose anchoring iff it is the anchoring equation of some factor,
    and purpose measurement otherwise. *)
Theorem C03_anchoring_rows md p r :
  wf_dicts md -> process_model md = Ok p -> In r (p_update p) ->
  (u_purpose r = Some PAnchoring <-> exists f, anchors md (u_period r) f (u_var r)) /\
  (u_purpose r = Some PMeasurement <-> ~ exists f, anchors md (u_period r) f (u_var r)).
Proof. apply p_update_purpose. Qed.

(** If no measurement has the name of an anchoring equation, every measurement
    keeps purpose measurement, and only measurements have it. *)
Theorem C03_measurement_rows_partial md p r :
  wf_dicts md -> process_model md = Ok p -> In r (p_update p) ->
  (forall k f g v, measures md k f v -> ~ anchors md k g v) ->
  (u_purpose r = Some PMeasurement <-> exists f, measures md (u_period r) f (u_var r)).
Proof.
  intros Hwf Hp Hr Hd. rewrite (proj2 (p_update_purpose md p r Hwf Hp Hr)). split.
  - intros Hna. assert (is_equation md (u_period r) (u_var r)) as [f [Hf|Hf]].
    { apply (In_rows_eq md p); eauto. }
    + eauto.
    + exfalso. eauto.
  - intros [f Hf] [g Hg]. eapply Hd; eauto.
Qed.

Example C03_nonvacuous :
  wf_dicts small_model /\ process_model small_model = Ok small_p /\
  map (fun r => (u_period r, u_var r)) (filter (fun r =>
     match u_purpose r with Some PAnchoring => true | _ => false end) (p_update small_p))
  = [(0, "Q1_cog"); (0, "Q2_soc"); (1, "Q1_cog"); (1, "Q2_soc"); (2, "Q1_cog"); (2, "Q2_soc")]
  /\ (forall k f g v, measures small_model k f v -> ~ anchors small_model k g v).
Proof.
  split; [exact small_model_wf|]. split; [exact small_model_accepted|].
  split; [reflexivity|].
  intros k f g v [fs [ms [Hin [Hms Hv]]]] [_ [o [[a [outs [Ha [Ho Hog]]]] ->]]].
  injection Ha as <-. injection Ho as <-.
  destruct Hin as [[= <- <-]|[[= <- <-]|[]]];
    repeat (destruct k as [|k]; simpl in Hms; [injection Hms as <-|]);
    try (destruct k; discriminate Hms);
    destruct Hog as [[= <- <-]|[[= <- <-]|[]]]; simpl in Hv; intuition discriminate.
Qed.

(** Without that hypothesis a measurement can lose its purpose: the measurement
    "Q_f" of factor "f" is turned into the anchoring equation of outcome "Q". *)
Definition clash_model : model_dict :=
  mk_md [("f", mk_factor [["m"; "Q_f"]; ["m"]] (TStr "linear") None)] None None None
    (Some (mk_anch (Some [("f", "Q")]) None None None None))
    (Some (mk_opts None None None None None None None None)).

Theorem C03_refuted :
  exists md p r f, wf_dicts md /\ process_model md = Ok p /\ In r (p_update p) /\
    measures md (u_period r) f (u_var r) /\ u_purpose r = Some PAnchoring.
Proof.
  exists clash_model, (get_ok (process_model clash_model) small_p),
    (mk_urow 0 "Q_f" ["f"; "f"] (Some PAnchoring)), "f".
  split.
  { split; [repeat constructor; simpl; tauto|].
    intros a o [= <-] [= <-]. repeat constructor; simpl; tauto. }
  split; [vm_compute; reflexivity|]. split; [vm_compute; tauto|].
  split; [|reflexivity].
  eexists _, _. split; [left; reflexivity|]. split; [reflexivity|]. simpl. tauto.
Qed.

(** ** C04 *)

(** Giving a model a stage map leads to acceptance iff the model is accepted with
    the default stage map and the stage map is valid. *)
Theorem C04_stagemap_validated md n sm :
  wf_dicts md -> has_n_periods md n ->
  (exists p, process_model (with_stagemap (Some sm) md) = Ok p) <->
  (exists p, process_model (with_stagemap None md) = Ok p) /\ valid_stagemap n sm.
Proof.
  intros Hwf Hn.
  assert (wf_dicts (with_stagemap (Some sm) md)) as Hw1 by exact Hwf.
  assert (wf_dicts (with_stagemap None md)) as Hw2 by exact Hwf.
  assert (forall o m, has_n_periods (with_stagemap o md) m <-> has_n_periods md m) as Hper
    by (intros; unfold has_n_periods; reflexivity).
  assert (forall o m, valid_normalizations (with_stagemap o md) m <-> valid_normalizations md m)
    as Hnorm by (intros; unfold valid_normalizations, normalized_loading, normalized_intercept,
                   measures; reflexivity).
  rewrite (process_model_accepts _ Hw1), (process_model_accepts _ Hw2). split.
  - intros [Ho [m [Hm [Hsm [Hno Ht]]]]]. apply (proj1 (Hper _ _)) in Hm. apply (proj1 (Hnorm _ _)) in Hno.
    rewrite (has_n_periods_fun _ _ _ Hm Hn) in *.
    assert (valid_stagemap n sm) as Hv by exact Hsm. split; [|exact Hv].
    split; [exact Ho|]. exists n. split; [now apply Hper|].
    split; [|split; [now apply (proj2 (Hnorm _ _))|exact Ht]].
    destruct Hv as [H1 _]. unfold stagemap_of. simpl.
    split; [exact H1|]. rewrite map_length, seq_length. split; [reflexivity|].
    assert (forall i z, nth_error (map Z.of_nat (seq 0 (n - 1))) i = Some z -> z = Z.of_nat i)
      as Hnth.
    { intros i z Hz. rewrite nth_error_map in Hz.
      change (seq 0 (n - 1)) with (range (n - 1)) in Hz.
      destruct (nth_error (range (n - 1)) i) as [k|] eqn:E; [|discriminate].
      assert (i < n - 1) as Hi.
      { assert (i < length (range (n - 1))) as Hi by (apply nth_error_Some; congruence).
        unfold range in Hi. rewrite seq_length in Hi. exact Hi. }
      rewrite (nth_error_range _ _ Hi) in E. injection E as <-.
      simpl in Hz. now injection Hz as <-. }
    split.
    + intros z Hz. apply Hnth in Hz. exact Hz.
    + intros i a b Ha Hb. apply Hnth in Ha. apply Hnth in Hb. right. lia.
  - intros [[Ho [m [Hm [Hsm [Hno Ht]]]]] Hv]. apply (proj1 (Hper _ _)) in Hm. apply (proj1 (Hnorm _ _)) in Hno.
    rewrite (has_n_periods_fun _ _ _ Hm Hn) in *.
    split; [exact Ho|]. exists n. split; [now apply Hper|]. split; [exact Hv|].
    split; [now apply (proj2 (Hnorm _ _))|exact Ht].
Qed.

(** The stages of an accepted model are 0, 1, ..., without holes, and are exactly
    the stages that occur in the stage map. *)
Theorem C04_stages_without_holes md p :
  process_model md = Ok p ->
  valid_stagemap (n_periods (p_dims p)) (l_stagemap (p_labels p)) /\
  (exists k, l_stages (p_labels p) = map Z.of_nat (seq 0 k)) /\
  (forall z, In z (l_stages (p_labels p)) <-> In z (l_stagemap (p_labels p))).
Proof.
  intros Hp. destruct (p_labels_eq md p Hp) as [_ [_ [_ [_ [Esm Est]]]]].
  apply process_model_inv in Hp. destruct Hp as [_ [_ [_ [_ [Hc _]]]]].
  unfold check_model in Hc. apply rbind_ok in Hc. destruct Hc as [rn [_ Hc]].
  rewrite Est, Esm in *.
  destruct (check_stagemap _ _ _) eqn:E; [|discriminate].
  apply check_stagemap_valid in E. split; [exact E|].
  split; [|intros z; apply zsort_unique_In].
  destruct E as [_ [_ [H0 Hs]]]. now apply stages_range.
Qed.

Example C04_nonvacuous :
  wf_dicts small_model /\ has_n_periods small_model 3 /\
  process_model (with_stagemap (Some [0; 1]%Z) small_model) = Ok small_p /\
  valid_stagemap 3 [0; 1]%Z /\ ~ valid_stagemap 3 [0; 2]%Z /\ ~ valid_stagemap 3 [1; 1]%Z.
Proof.
  split; [exact small_model_wf|]. split; [exact small_model_periods|].
  split; [vm_compute; reflexivity|]. split; [|split].
  - repeat split; simpl; try lia.
    + intros z [= <-]. reflexivity.
    + intros [|[|[|i]]] a b; simpl; try discriminate. intros [= <-] [= <-]. lia.
  - intros [_ [_ [_ H]]]. specialize (H 0 0%Z 2%Z eq_refl eq_refl). lia.
  - intros [_ [_ [H _]]]. specialize (H 1%Z eq_refl). lia.
Qed.

(** ** C05 *)

Theorem C05_normalizations_valid md p :
  wf_dicts md -> process_model md = Ok p ->
  (forall k f v q, normalized_loading md k f v q ->
     measures md k f v /\ ~ (q == 0)%Q /\ In (CLoadings, k, v, f) (params_index_of p)) /\
  (forall k f v q, normalized_intercept md k f v q ->
     measures md k f v /\ In (CControls, k, v, "constant") (params_index_of p)).
Proof.
  intros Hwf Hp.
  destruct (proj1 (process_model_accepts md Hwf) (ex_intro _ p Hp)) as [_ [n [Hn [_ [Hv _]]]]].
  destruct Hv as [H1 [H2 _]]. split; intros k f v q Hq.
  - destruct (H1 k f v q Hq) as [Hm Hz]. split; [exact Hm|]. split; [exact Hz|].
    apply (In_params_index md p _ Hwf Hp). constructor; [now left|].
    destruct Hm as [fs [ms [Hin _]]]. apply in_map_iff. now exists (f, fs).
  - pose proof (H2 k f v q Hq) as Hm. split; [exact Hm|].
    apply (In_params_index md p _ Hwf Hp). constructor; [|now left].
    exists f. now left.
Qed.

(** Exactly which specifications are accepted. *)
Theorem C05_acceptance md :
  wf_dicts md ->
  (exists p, process_model md = Ok p) <->
  md_options md <> None /\
  exists n, has_n_periods md n /\
    valid_stagemap n (stagemap_of md n) /\
    valid_normalizations md n /\
    (forall f fs, In (f, fs) (md_factors md) -> valid_transition (fs_transition fs)).
Proof. apply process_model_accepts. Qed.

Example C05_nonvacuous :
  wf_dicts small_model /\ process_model small_model = Ok small_p /\
  normalized_loading small_model 1 "soc" "c" 2%Q /\
  normalized_intercept small_model 0 "cog" "a" 0%Q.
Proof.
  split; [exact small_model_wf|]. split; [exact small_model_accepted|]. split.
  - eexists _, _, _, _. split; [right; left; reflexivity|].
    repeat split; simpl; try reflexivity. simpl. tauto.
  - eexists _, _, _, _. split; [left; reflexivity|].
    repeat split; simpl; try reflexivity. simpl. tauto.
Qed.

(** ** C06 *)

(** Proved part: leaving out any section but "factors" and "estimation_options",
    or any entry of a section, is the same as writing out its documented
    default. Missing: leaving out the whole section "estimation_options", see
    [C06_refuted]. *)
Theorem C06_optional_sections_partial md n :
  has_n_periods md n -> md_options md <> None ->
  process_model (write_out_defaults n md) = process_model md.
Proof. intros Hn _. now apply write_out_defaults_same. Qed.

(** Without anchoring section nothing is anchored. *)
Theorem C06_no_anchoring md p :
  wf_dicts md -> process_model md = Ok p -> md_anchoring md = None ->
  a_anchoring (p_anch p) = false /\ a_factors (p_anch p) = [] /\
  forall r, In r (p_update p) -> u_purpose r = Some PMeasurement.
Proof.
  intros Hwf Hp Ha. pose proof (process_model_inv md p Hp) as [_ [_ [Hpa _]]].
  rewrite Hpa. unfold process_anchoring. rewrite Ha. split; [reflexivity|].
  split; [reflexivity|]. intros r Hr.
  apply (proj2 (p_update_purpose md p r Hwf Hp Hr)).
  intros [f [_ [o [[a [outs [Ha' _]]] _]]]]. congruence.
Qed.

Definition minimal_model : model_dict :=
  mk_md [("f", mk_factor [["m1"; "m2"]; ["m1"]; []] (TStr "linear") None)] None None None None
    (Some (mk_opts None None None None None None None None)).

Example C06_nonvacuous :
  has_n_periods minimal_model 3 /\ md_options minimal_model <> None /\
  is_ok (process_model minimal_model) = true /\
  write_out_defaults 3 minimal_model <> minimal_model.
Proof.
  split; [|split; [discriminate|split; [vm_compute; reflexivity|discriminate]]].
  split.
  - eexists _, _. split; [left; reflexivity|reflexivity].
  - intros f fs [[= <- <-]|[]]. simpl. lia.
Qed.

(** The documentation says that estimation_options can be left out; but then
    every model is rejected with a KeyError. *)
Theorem C06_refuted :
  forall md n, has_n_periods md n -> md_options md = None -> process_model md = Err KeyError.
Proof.
  intros md n Hn Ho. unfold process_model, get_dimensions. rewrite Ho.
  assert (exists m, py_max (map (fun d => length (fs_measurements d)) (dvalues (md_factors md)))
                    = Ok m) as [m ->]; [|reflexivity].
  destruct Hn as [[f [fs [Hin _]]] _].
  destruct (md_factors md) as [|x l]; [destruct Hin|]. simpl. eauto.
Qed.

(** ** C07 *)

Theorem C07_index_unique_partial md p :
  wf_dicts md -> good_names md -> process_model md = Ok p -> NoDup (params_index_of p).
Proof. apply NoDup_params_index. Qed.

Lemma small_model_good_names : good_names small_model.
Proof.
  unfold good_names, without_char. repeat split.
  - repeat constructor; simpl; intuition discriminate.
  - simpl. intros f H. intuition subst; simpl in *; intuition discriminate.
  - simpl in H. intuition subst; simpl in *; intuition discriminate.
  - simpl in *. intuition subst; intuition discriminate.
  - intros g. simpl in H. intuition subst; discriminate.
  - repeat constructor; simpl; intuition.
  - simpl. intuition discriminate.
  - intros f fs n names [[= <- <-]|[[= <- <-]|[]]] E; simpl in E; [discriminate|].
    injection E as <- <-. repeat constructor; simpl; intuition discriminate.
Qed.

Example C07_nonvacuous :
  wf_dicts small_model /\ good_names small_model /\ process_model small_model = Ok small_p /\
  length (params_index_of small_p) = 93.
Proof.
  split; [exact small_model_wf|]. split; [exact small_model_good_names|].
  split; [exact small_model_accepted|]. reflexivity.
Qed.

(** Dashes in factor names can make labels ambiguous. *)
Definition dash_model : model_dict :=
  mk_md (map (fun f => (f, mk_factor [["m"]; ["m"]] (TStr "linear") None))
             ["z"; "x-y"; "y-z"; "x"]) None None None None
    (Some (mk_opts None None None None None None None None)).

Theorem C07_refuted :
  exists md p, wf_dicts md /\ process_model md = Ok p /\ ~ NoDup (params_index_of p).
Proof.
  exists dash_model, (get_ok (process_model dash_model) small_p). split.
  { split; [repeat constructor; simpl; intuition discriminate|]. intros a o H. discriminate. }
  split; [vm_compute; reflexivity|]. intros H.
  assert (exists i j lb, i <> j /\
    nth_error (params_index_of (get_ok (process_model dash_model) small_p)) i = Some lb /\
    nth_error (params_index_of (get_ok (process_model dash_model) small_p)) j = Some lb)
    as [i [j [lb [Hij [Hi Hj]]]]].
  { assert (forall l : list label,
      (exists i j, i <? j = true /\ nth_error l i <> None /\ nth_error l i = nth_error l j) ->
      exists i j lb, i <> j /\ nth_error l i = Some lb /\ nth_error l j = Some lb) as Hex.
    { intros l [i [j [Hij [Hi E]]]]. destruct (nth_error l i) as [lb|] eqn:El; [|congruence].
      exists i, j, lb. apply Nat.ltb_lt in Hij. split; [lia|]. auto. }
    apply Hex. exists 22, 29. vm_compute. repeat split; congruence. }
  apply Hij. apply (proj1 (NoDup_nth_error _) H); [apply nth_error_Some|]; congruence.
Qed.

(** ** C08 *)

Theorem C08_index_contents md p :
  wf_dicts md -> process_model md = Ok p ->
  (forall lb, In lb (params_index_of p) <-> is_param md lb) /\
  StronglySorted (fun a b => cat_rank (lb_cat a) <= cat_rank (lb_cat b)) (params_index_of p).
Proof.
  intros Hwf Hp. split.
  - intros lb. now apply In_params_index.
  - apply params_index_sorted.
Qed.

Example C08_nonvacuous :
  wf_dicts small_model /\ process_model small_model = Ok small_p /\
  is_param small_model (CTransition, 1, "cog", "cog * inc") /\
  is_param small_model (CInitChol, 0, "mixture_1", "soc-cog").
Proof.
  split; [exact small_model_wf|]. split; [exact small_model_accepted|]. split.
  - eapply par_transition; [exact small_model_periods|lia|left; reflexivity|].
    simpl. tauto.
  - apply (par_initial_chol small_model 1 1 0 "soc" "cog"); simpl; auto.
Qed.

Print Assumptions C01_number_of_periods.
Print Assumptions C01_padding.
Print Assumptions C02_rows_of_update_table.
Print Assumptions C03_anchoring_rows.
Print Assumptions C03_measurement_rows_partial.
Print Assumptions C03_refuted.
Print Assumptions C04_stagemap_validated.
Print Assumptions C04_stages_without_holes.
Print Assumptions C05_normalizations_valid.
Print Assumptions C05_acceptance.
Print Assumptions C06_optional_sections_partial.
Print Assumptions C06_no_anchoring.
Print Assumptions C06_refuted.
Print Assumptions C07_index_unique_partial.
Print Assumptions C07_refuted.
Print Assumptions C08_index_contents.
