(** Theorems about likelihood_function.py and clipping.py (C41 to C47, C66). *)
Require Import Reals Qreals String Arith ZArith Bool List Lia Lra Classical Permutation.
From Verif Require Import PyBase ListFacts StringFacts ModelSpec ProcessModel CheckModel SpecModel ProcessModelFacts
  SpecParse SpecIndex IndexFacts ParamsIndex ParseParams ParamsVec ExampleModels PropsSpec PropsParse
  ProcessData SpecData PropsData RSum Kalman SpecKalman KalmanFacts QRWitness Clipping Likelihood
  SpecLikelihood PredictFacts ScheduleFacts LikelihoodFacts LikelihoodRun LikelihoodLocal.
Import ListNotations.
Open Scope R_scope.

(** ** An example over the real numbers *)

(** Data sets with integer values, seen as data sets with real values. *)
Definition real_frame (df : frame Z) : frame R :=
  mk_frame (fr_columns df) (fr_id_level df) (fr_period_level df)
    (map (fun r => mk_drow (dr_id r) (dr_period r) (fun c => option_map IZR (dr_cells r c))) (fr_rows df)).

Lemma real_value md df lv id t x :
  value 1 md (real_frame df) lv id t x = option_map IZR (value 1%Z md df lv id t x).
Proof.
  assert (Hraw : forall y, raw_cells (real_frame df) lv id t y = option_map IZR (raw_cells df lv id t y)).
  { intros y. unfold raw_cells. destruct (nth_error lv t) as [z|]; [|reflexivity].
    unfold real_frame. cbn [fr_rows]. induction (fr_rows df) as [|r l IH]; [reflexivity|].
    cbn [map find dr_id dr_period]. destruct (Z.eqb (dr_id r) id && Z.eqb (dr_period r) z)%bool; [reflexivity|exact IH]. }
  unfold value, data_value. destruct (find _ _); [apply Hraw|]. destruct (String.eqb x "constant"); [reflexivity|].
  apply Hraw.
Qed.

Lemma real_setting md p n df ids lv : data_setting md p n df ids lv -> data_setting md p n (real_frame df) ids lv.
Proof.
  assert (Hex : forall (P : Z -> Z -> Prop),
    (exists r, In r (fr_rows df) /\ P (dr_id r) (dr_period r)) <->
    (exists r, In r (fr_rows (real_frame df)) /\ P (dr_id r) (dr_period r))).
  { intros P. split.
    - intros (r & Hr & HP). eexists. split; [apply in_map, Hr|exact HP].
    - intros (r & Hr & HP). apply in_map_iff in Hr as (r0 & <- & Hr0). exists r0. auto. }
  intros (H1 & H2 & H3 & H4 & H5 & H6 & H7). repeat (split; [assumption|]). split; [|split].
  - intros r Hr. unfold real_frame in Hr. cbn [fr_rows] in Hr. apply in_map_iff in Hr as (r0 & <- & Hr0). apply (H5 r0 Hr0).
  - destruct H6 as [H6 H6']. split; [assumption|]. intros z. rewrite H6'. apply (Hex (fun i _ => i = z)).
  - assumption.
Qed.

Lemma real_process md p n df ids lv ar :
  data_setting md p n df ids lv ->
  process_data 1%Z Z.eqb df (p_labels p) (p_update p) (p_anch p) true = Ok ar ->
  exists ar', process_data 1 req (real_frame df) (p_labels p) (p_update p) (p_anch p) true = Ok ar'.
Proof.
  intros Hd Har.
  pose proof (C28_check_exact 1%Z Z.eqb md p n df ids lv true Z.eqb_eq Hd) as [[H _] _].
  pose proof (C28_check_exact 1 req md p n (real_frame df) ids lv true req_spec (real_setting _ _ _ _ _ _ Hd)) as [[_ H'] _].
  apply H'. clear H'. destruct (H (ex_intro _ ar Har)) as (Hu & Ho & Hpr & Hm). clear H.
  assert (Hav : forall x, available md (real_frame df) x <-> available md df x) by (intros; reflexivity).
  split; [|split; [|split]].
  - unfold unique_index in *. cbn [real_frame fr_rows]. rewrite map_map. exact Hu.
  - exact Ho.
  - intros (t & x & pr & Ht & Hx). apply Hpr. exists t, x, pr. split; [exact Ht|].
    assert (HN : forall id y, value 1 md (real_frame df) lv id t y = None <-> value 1%Z md df lv id t y = None).
    { intros id y. rewrite real_value. destruct (value 1%Z md df lv id t y); cbn [option_map]; split; congruence. }
    destruct Hx as [c Hc Hx|v _ Hv Hx|v r _ Hv Hx He Hall|f Hf Hx|f id Hf Hx Hid Hnone].
    + constructor; [assumption|]. destruct Hx as [Hx|Hx]; [now left|right].
      intros id Hid. now apply HN, Hx.
    + now apply measurement_missing.
    + destruct He as (id & Hid & Hv1). rewrite real_value in Hv1.
      destruct (value 1%Z md df lv id t v) as [z|] eqn:Ez; [|discriminate].
      apply (measurement_constant _ 1%Z md n df ids lv true t v z); [reflexivity|assumption|assumption|eauto|].
      intros id' y Hid' Hy. specialize (Hall id' (IZR y) Hid'). rewrite real_value, Hy in Hall.
      specialize (Hall eq_refl). simpl in Hv1. injection Hv1 as Hv1. apply eq_IZR. congruence.
    + now apply observed_absent.
    + apply (observed_incomplete _ 1%Z md n df ids lv true t f id); try assumption. now apply HN.
  - exact Hm.
Qed.

(** [small_model] with a single mixture element. *)
Definition single_model : model_dict :=
  mk_md (md_factors small_model) (md_observed small_model) (md_controls small_model)
    (md_stagemap small_model) (md_anchoring small_model)
    (Some (mk_opts (Some 1%nat) None None None None None None None)).
Definition single_p : processed := get_ok (process_model single_model) small_p.

Lemma single_model_accepted : process_model single_model = Ok single_p.
Proof. vm_compute. reflexivity. Qed.

Lemma single_setting : data_setting single_model single_p 3 ex_df ex_ids ex_lv.
Proof.
  destruct ex_setting as (H1 & _ & H3 & H4 & H5 & H6 & H7).
  split; [exact H1|]. split; [exact single_model_accepted|]. split; [exact H3|]. split; [exact H4|].
  auto.
Qed.

Definition single_params : list R := map INR (seq 1 (length (params_index_of single_p))).

Lemma single_example : exists ar ps,
  likelihood_setting single_model single_p 3 (real_frame ex_df) ex_ids ex_lv ar single_params ps.
Proof.
  destruct (real_process single_model single_p 3 ex_df ex_ids ex_lv
              (get_ok (process_data 1%Z Z.eqb ex_df (p_labels single_p) (p_update single_p) (p_anch single_p) true)
                 ex_arrays) single_setting) as [ar Har].
  { vm_compute. reflexivity. }
  assert (Hl : length single_params = length (params_index_of single_p)).
  { unfold single_params. now rewrite map_length, seq_length. }
  destruct (C09_parsing_succeeds R 0 1 ln single_model single_p 3 (length ex_ids) single_params) as [ps Hps].
  - apply single_setting.
  - apply (idx_NoDup single_model single_p); [apply single_setting|exact small_model_good_names|exact single_model_accepted].
  - exact single_model_accepted.
  - exact small_model_periods.
  - exact Hl.
  - exact small_model_clean.
  - lia.
  - apply Nat.leb_le. reflexivity.
  - exists ar, ps. split; [apply real_setting, single_setting|]. split; [exact small_model_good_names|].
    split; [exact Har|]. split; [exact Hl|exact Hps].
Qed.

(** * C41 *)

(** If every period has an equation, the log likelihood is computed by following the
    schedule: period by period all equations with the controls of the period, then
    one transition with the parameters of the period, none after the last period. If
    a step of the schedule is impossible (see C40), the likelihood raises the same
    error. Missing: models with a period without equations, see C41_refuted. *)
Theorem C41_schedule_partial :
  forall qr nan tfunc md p n df ids lv ar params ps debug,
    likelihood_setting md p n df ids lv ar params ps ->
    every_period_measured md n -> (2 <= n)%nat ->
    match run_model qr nan tfunc p (length ids) ps ar (schedule md n) with
    | Ok recs => length recs = length (equations md n) /\
        exists out, log_likelihood qr nan tfunc p ar debug params = Ok out /\
                    reports (p_options p) (length ids) recs (initial_belief ps) debug out
    | Err e => log_likelihood qr nan tfunc p ar debug params = Err e
    end.
Proof.
  intros qr nan tfunc md p n df ids lv ar params ps debug H Hev Hn2.
  assert (Hwf : wf_dicts md) by apply H. assert (Hp : process_model md = Ok p) by apply H.
  assert (Hn : has_n_periods md n) by apply H.
  rewrite <- (schedule_code md p n Hwf Hp Hn Hev).
  destruct (shapes_fit (length ids) (n_mixtures (p_dims p)) (n_observed (p_dims p))) eqn:Hfit.
  - destruct (likelihood_events qr nan tfunc md p n df ids lv ar params ps debug H Hfit)
      as (recs & out & -> & Hl & Ho & Hr).
    split; [|eauto]. rewrite Hl, (equations_update md p n Hwf Hp Hn). symmetry. apply map_length.
  - rewrite (schedule_code md p n Hwf Hp Hn Hev). unfold run_model.
    assert (Hin : In (Transition 0) (schedule md n)).
    { unfold schedule. apply in_flat_map. exists 0%nat. split; [apply in_seq; lia|].
      apply in_or_app. right. destruct (0 + 1 <? n)%nat eqn:E; [now left|apply Nat.ltb_ge in E; lia]. }
    rewrite (run_misfits qr nan tfunc _ _ (n_latent (p_dims p)) _ (n_controls (p_dims p)) _ (inputs_of ps ar)
               _ _ (initial_belief ps) Hfit Hin).
    apply (likelihood_misfits qr nan tfunc md p n df ids lv ar params ps debug H Hfit).
    destruct (Hev 0%nat ltac:(lia)) as (v & Hv). rewrite (equations_update md p n Hwf Hp Hn) in Hv.
    intros E. rewrite E in Hv. destruct Hv.
Qed.
Print Assumptions C41_schedule_partial.

Example C41_nonvacuous :
  (exists ar ps, likelihood_setting single_model single_p 3 (real_frame ex_df) ex_ids ex_lv ar single_params ps) /\
  every_period_measured single_model 3 /\
  schedule single_model 3
  = [Measure 0 0; Measure 1 0; Measure 2 0; Anchor 3 0; Anchor 4 0; Transition 0;
     Measure 5 1; Measure 6 1; Anchor 7 1; Anchor 8 1; Transition 1;
     Measure 9 2; Measure 10 2; Anchor 11 2; Anchor 12 2].
Proof.
  split; [exact single_example|]. split; [|vm_compute; reflexivity].
  intros t Ht. exists "a"%string. destruct t as [|[|[|t]]]; [vm_compute; tauto..|lia].
Qed.

(** A model whose second period has no equation. *)
Definition gap_model : model_dict :=
  mk_md [("cog", mk_factor [["a"; "b"]; []; ["a"; "b"]] (TStr "linear")
            (Some (mk_norm (Some [[("a", 1%Q)]; []; [("a", 1%Q)]]) None)))]%string
    None None None None (Some (mk_opts None None None None None None None None)).
Definition gap_p : processed := get_ok (process_model gap_model) small_p.

Lemma gap_model_accepted : process_model gap_model = Ok gap_p.
Proof. vm_compute. reflexivity. Qed.

(** The likelihood of this model does not depend on the transition function at all,
    although the second and third period have to be reached by transitions. *)
Theorem C41_refuted :
  exists md p, process_model md = Ok p /\ has_n_periods md 3 /\
    In (Transition 0) (schedule md 3) /\ In (Transition 1) (schedule md 3) /\
    forall qr nan tfunc tfunc' df ids lv ar params ps debug,
      likelihood_setting md p 3 df ids lv ar params ps ->
      exists recs out out',
        log_likelihood qr nan tfunc p ar debug params = Ok out /\
        log_likelihood qr nan tfunc' p ar debug params = Ok out' /\
        reports (p_options p) (length ids) recs (initial_belief ps) debug out /\
        reports (p_options p) (length ids) recs (initial_belief ps) debug out'.
Proof.
  exists gap_model, gap_p. split; [exact gap_model_accepted|]. split; [|split; [|split]].
  - split.
    + eexists _, _. split; [left; reflexivity|reflexivity].
    + intros f fs [[= <- <-]|[]]. simpl. lia.
  - vm_compute. tauto.
  - vm_compute. tauto.
  - intros qr nan tfunc tfunc' df ids lv ar params ps debug H.
    assert (Hfit : shapes_fit (length ids) (n_mixtures (p_dims gap_p)) (n_observed (p_dims gap_p)) = true).
    { apply shapes_fit_spec. right. left. reflexivity. }
    destruct (likelihood_events qr nan tfunc _ _ _ _ _ _ _ _ _ debug H Hfit) as (recs & out & E & _ & Eo & Hr).
    destruct (likelihood_events qr nan tfunc' _ _ _ _ _ _ _ _ _ debug H Hfit) as (recs' & out' & E' & _ & Eo' & Hr').
    assert (Hcode : code_events 0 (purposes (p_update gap_p))
                    = [Measure 0 0; Measure 1 0; Measure 2 2; Measure 3 2]) by (vm_compute; reflexivity).
    rewrite Hcode in E, E'. unfold run_model in E, E'. cbn [run rbind] in E, E'.
    rewrite E in E'. injection E' as <-. eauto 8.
Qed.
Print Assumptions C41_refuted.

Definition gap_df : frame Z :=
  mk_frame ["a"; "b"]%string [1; 2]%Z [0; 1; 2]%Z
    [mk_drow 1 0 (cells [("a", 1); ("b", 2)]%string); mk_drow 1 1 (cells []);
     mk_drow 1 2 (cells [("a", 3); ("b", 4)]%string);
     mk_drow 2 0 (cells [("a", 2); ("b", 3)]%string); mk_drow 2 1 (cells []);
     mk_drow 2 2 (cells [("a", 5); ("b", 6)]%string)]%Z.

Lemma gap_good_names : good_names gap_model.
Proof.
  unfold good_names, without_char. repeat split.
  - repeat constructor; simpl; intuition discriminate.
  - simpl. intros f H. intuition subst; simpl in *; intuition discriminate.
  - simpl in H. intuition subst; simpl in *; intuition discriminate.
  - simpl in *. intuition subst; intuition discriminate.
  - intros g. simpl in H. intuition subst; discriminate.
  - repeat constructor; simpl; intuition.
  - simpl. intuition discriminate.
  - intros f fs n names [[= <- <-]|[]] E; simpl in E; discriminate.
Qed.

Lemma gap_setting : data_setting gap_model gap_p 3 gap_df [1; 2]%Z [0; 1; 2]%Z.
Proof.
  split; [|split; [exact gap_model_accepted|split; [|split; [|split; [|split]]]]].
  - split; [repeat constructor; simpl; intuition|]. intros a o H. discriminate.
  - split; [eexists _, _; split; [left; reflexivity|reflexivity]|].
    intros f fs [[= <- <-]|[]]. simpl. lia.
  - split; [constructor|]. intros fo [].
  - intros r Hr. repeat (destruct Hr as [<-|Hr]; [simpl; tauto|]). destruct Hr.
  - split; [repeat constructor|]. intros z. split.
    + intros [<-|[<-|[]]].
      * eexists. split; [left; reflexivity|reflexivity].
      * eexists. split; [do 3 right; left; reflexivity|reflexivity].
    + intros (r & Hr & <-). repeat (destruct Hr as [<-|Hr]; [simpl; tauto|]). destruct Hr.
  - split; [repeat constructor|]. intros z. reflexivity.
Qed.

Definition gap_params : list R := map INR (seq 1 (length (params_index_of gap_p))).

Example C41_refuted_nonvacuous :
  exists ar ps, likelihood_setting gap_model gap_p 3 (real_frame gap_df) [1; 2]%Z [0; 1; 2]%Z ar gap_params ps.
Proof.
  destruct (real_process gap_model gap_p 3 gap_df [1; 2]%Z [0; 1; 2]%Z
              (get_ok (process_data 1%Z Z.eqb gap_df (p_labels gap_p) (p_update gap_p) (p_anch gap_p) true)
                 ex_arrays) gap_setting) as [ar Har].
  { vm_compute. reflexivity. }
  assert (Hl : length gap_params = length (params_index_of gap_p)).
  { unfold gap_params. now rewrite map_length, seq_length. }
  destruct (C09_parsing_succeeds R 0 1 ln gap_model gap_p 3 2 gap_params) as [ps Hps].
  - apply gap_setting.
  - apply (idx_NoDup gap_model gap_p); [apply gap_setting|exact gap_good_names|exact gap_model_accepted].
  - exact gap_model_accepted.
  - apply gap_setting.
  - exact Hl.
  - split; [intros f o []|]. split; [constructor|]. intros t f o g [].
  - lia.
  - apply Nat.leb_le. reflexivity.
  - exists ar, ps. split; [apply real_setting, gap_setting|]. split; [exact gap_good_names|].
    split; [exact Har|]. split; [exact Hl|exact Hps].
Qed.

(** * C42 *)

(** The value is the sum over individuals of the contributions; the contribution of
    an individual is the sum over all equations (measurements and anchoring) of its
    softly clipped contributions, which the debug output reports unclipped. *)
Theorem C42_sum_of_contributions :
  forall qr nan tfunc md p n df ids lv ar params ps debug out,
    likelihood_setting md p n df ids lv ar params ps ->
    log_likelihood qr nan tfunc p ar debug params = Ok out ->
    out_value out = rsum (length ids) (out_contributions out) /\
    forall dbg, out_debug out = Some dbg ->
      forall i, out_contributions out i
        = rsum (length (equations md n)) (fun k => clip_with (p_options p) (do_all_contributions dbg k i)).
Proof.
  intros qr nan tfunc md p n df ids lv ar params ps debug out H E.
  pose proof (ar_shapes md p n df ids lv ar params ps H) as (_ & _ & Hobs).
  pose proof (loop_args_ok md p n df ids lv ar params ps H) as Hargs.
  assert (Hps : parse_for 0 1 ln p params (length ids) = Ok ps) by apply H.
  unfold log_likelihood in E. rewrite Hobs, Hps in E. cbn [rbind] in E. rewrite Hargs in E. cbn [rbind] in E.
  apply rbind_ok in E as ([ca outs] & Es & E). cbn [snd] in E. injection E as <-.
  cbn [out_value out_contributions out_debug]. split; [apply rsum_swap|].
  intros dbg Hd i. destruct debug; [|discriminate]. injection Hd as <-. cbn [do_all_contributions].
  assert (Hl : length outs = length (equations md n)).
  { rewrite (equations_update md p n) by apply H. rewrite map_length.
    rewrite <- (seq_length (length (p_update p)) 0), <- (map_length (the_arg n ps ar (p_update p))).
    clear -Es. revert Es. generalize (map (the_arg n ps ar (p_update p)) (seq 0 (length (p_update p)))).
    generalize (mk_carry (arr3 (ps_states ps)) (arr4 (ps_upper_chols ps)) (arr2 (ps_log_weights ps))).
    intros c l. revert c outs ca. induction l as [|a l IH]; intros c outs ca Es; simpl in Es.
    - injection Es as <- <-. reflexivity.
    - apply rbind_ok in Es as (r & _ & Es). apply rbind_ok in Es as ([ca' rest] & Er & Es).
      injection Es as <- <-. simpl. f_equal. eapply IH, Er. }
  rewrite Hl. reflexivity.
Qed.
Print Assumptions C42_sum_of_contributions.

Example C42_nonvacuous :
  exists ar ps, likelihood_setting single_model single_p 3 (real_frame ex_df) ex_ids ex_lv ar single_params ps /\
    forall qr nan tfunc debug, exists out, log_likelihood qr nan tfunc single_p ar debug single_params = Ok out.
Proof.
  destruct single_example as (ar & ps & H). exists ar, ps. split; [exact H|].
  intros qr nan tfunc debug.
  destruct (likelihood_events qr nan tfunc _ _ _ _ _ _ _ _ _ debug H) as (recs & out & _ & _ & E & _);
    [|eauto]. apply shapes_fit_spec. right. right. reflexivity.
Qed.

(** * C43 *)

(** Two individuals, possibly in different data sets, for whom the data sets contain
    the same values in all periods of the model. *)
Definition same_data (n : nat) (df : frame R) (lv : list Z) (id : Z) (df' : frame R) (lv' : list Z)
    (id' : Z) : Prop :=
  forall t x, (t < n)%nat -> raw_cells df lv id t x = raw_cells df' lv' id' t x.

Lemma same_value md n df lv id df' lv' id' t x : same_data n df lv id df' lv' id' -> (t < n)%nat ->
  value 1 md df lv id t x = value 1 md df' lv' id' t x.
Proof.
  intros H Ht. unfold value, data_value. destruct (find _ _); [now apply H|].
  destruct (String.eqb x "constant"); [reflexivity|now apply H].
Qed.

Lemma same_discarded md n df lv id df' lv' id' t : same_data n df lv id df' lv' id' -> (t < n)%nat ->
  discarded 1 md n df lv id t <-> discarded 1 md n df' lv' id' t.
Proof.
  intros H Ht. unfold discarded. split; intros [(c & Hc & E) (v & Hv & E')]; (split; [exists c|exists v]);
    (split; [assumption|]).
  - now rewrite <- (same_value md n df lv id df' lv' id' t c H Ht).
  - now rewrite <- (same_value md n df lv id df' lv' id' t v H Ht).
  - now rewrite (same_value md n df lv id df' lv' id' t c H Ht).
  - now rewrite (same_value md n df lv id df' lv' id' t v H Ht).
Qed.

Lemma same_handed_over md n df lv id df' lv' id' t x w w' :
  same_data n df lv id df' lv' id' -> (t < n)%nat ->
  handed_over 1 md n df lv id t x w -> handed_over 1 md n df' lv' id' t x w' -> w = w'.
Proof.
  intros H Ht [A B] [A' B'].
  pose proof (same_discarded md n df lv id df' lv' id' t H Ht) as Hd.
  destruct (classic (discarded 1 md n df lv id t)) as [D|D].
  - rewrite (A D). symmetry. apply A'. now apply Hd.
  - rewrite (B D), B' by (intros D'; apply D; now apply Hd). now apply (same_value md n).
Qed.

Lemma oarr1_entry (m : list (list (option R))) k i w : entry m k i w -> oarr1 (nth k m []) i = w.
Proof.
  intros (row & H1 & H2). rewrite (nth_of_nth_error _ _ _ [] H1). unfold oarr1.
  now apply nth_of_nth_error.
Qed.

Lemma oarr2_entry (m : list (list (list (option R)))) t i c w : entry3 m t i c w -> oarr2 (nth t m []) i c = w.
Proof.
  intros (sheet & H1 & H2). rewrite (nth_of_nth_error _ _ _ [] H1). unfold oarr2. now apply oarr1_entry.
Qed.

(** An individual's contribution is a function of its own data: it is the same in
    every data set that contains the same data for the individual, wherever the
    individual appears, and one likelihood is defined iff the other is. This needs
    that the QR decomposition and the transition function only read the entries that
    exist. *)
Theorem C43_individuals_independent :
  forall qr nan tfunc md p n df ids lv ar df' ids' lv' ar' params ps ps' debug i id j id',
    local_qr qr ->
    (forall c, local_transition (n_latent (p_dims p)) (n_latent (p_dims p) + n_observed (p_dims p)) (tfunc c)) ->
    likelihood_setting md p n df ids lv ar params ps ->
    likelihood_setting md p n df' ids' lv' ar' params ps' ->
    nth_error ids i = Some id -> nth_error ids' j = Some id' ->
    same_data n df lv id df' lv' id' ->
    match log_likelihood qr nan tfunc p ar debug params, log_likelihood qr nan tfunc p ar' debug params with
    | Ok out, Ok out' => out_contributions out i = out_contributions out' j
    | Err e, Err e' => e = e'
    | _, _ => False
    end.
Proof.
  intros qr nan tfunc md p n df ids lv ar df' ids' lv' ar' params ps ps' debug i id j id' Hqr Htf H H' Hi Hj Hs.
  assert (Hwf : wf_dicts md) by apply H. assert (Hp : process_model md = Ok p) by apply H.
  assert (Hn : has_n_periods md n) by apply H.
  assert (Hids : (1 <= length ids)%nat).
  { destruct ids; [now destruct i|simpl; lia]. }
  assert (Hids' : (1 <= length ids')%nat).
  { destruct ids'; [now destruct j|simpl; lia]. }
  assert (Hi' : (i < length ids)%nat) by (apply nth_error_Some; congruence).
  assert (Hj' : (j < length ids')%nat) by (apply nth_error_Some; congruence).
  assert (Efit : shapes_fit (length ids') (n_mixtures (p_dims p)) (n_observed (p_dims p))
                 = shapes_fit (length ids) (n_mixtures (p_dims p)) (n_observed (p_dims p))).
  { unfold shapes_fit. f_equal. f_equal. destruct (length ids), (length ids'); try lia; reflexivity. }
  destruct (shapes_fit (length ids) (n_mixtures (p_dims p)) (n_observed (p_dims p))) eqn:Hfit.
  2:{ destruct (p_update p) as [|r u] eqn:Eu.
      - unfold log_likelihood.
        destruct (ar_shapes md p n df ids lv ar params ps H) as (_ & _ & ->).
        destruct (ar_shapes md p n df' ids' lv' ar' params ps' H') as (_ & _ & ->).
        assert (Hps : parse_for 0 1 ln p params (length ids) = Ok ps) by apply H.
        assert (Hps' : parse_for 0 1 ln p params (length ids') = Ok ps') by apply H'.
        rewrite Hps, Hps'. cbn [rbind].
        rewrite (loop_args_ok md p n df ids lv ar params ps H), (loop_args_ok md p n df' ids' lv' ar' params ps' H').
        rewrite Eu. cbn. reflexivity.
      - rewrite (likelihood_misfits qr nan tfunc md p n df ids lv ar params ps debug H Hfit) by (rewrite Eu; discriminate).
        rewrite (likelihood_misfits qr nan tfunc md p n df' ids' lv' ar' params ps' debug H' Efit)
          by (rewrite Eu; discriminate). reflexivity. }
  destruct (likelihood_events qr nan tfunc md p n df ids lv ar params ps debug H Hfit)
    as (recs & out & Er & _ & -> & Hr).
  destruct (likelihood_events qr nan tfunc md p n df' ids' lv' ar' params ps' debug H' Efit)
    as (recs' & out' & Er' & _ & -> & Hr').
  destruct Hr as (_ & -> & _), Hr' as (_ & -> & _).
  assert (Hps : parse_for 0 1 ln p params (length ids) = Ok ps) by apply H.
  assert (Hps' : parse_for 0 1 ln p params (length ids') = Ok ps') by apply H'.
  destruct (parse_n_obs p params (length ids) (length ids') ps Hps)
    as (ps2 & s & c & w & Hps2 & E1 & E2 & E3 & E4 & E5 & E6 & E7 & E8 & E9 & E10 & E11 & E12 & E13).
  rewrite Hps' in Hps2. injection Hps2 as <-.
  destruct (p_dims_eq md p Hp) as (_ & Dno & Dnc & _ & _ & _).
  assert (Hsame : Forall2 (same_record (n_mixtures (p_dims p)) (n_latent (p_dims p)) i j) recs recs').
  { eapply (run_same qr Hqr nan tfunc _ _ _ _ _ Htf (parse_mixtures p params _ ps Hps) (length ids)
              (length ids') (inputs_of ps ar) (inputs_of ps' ar') i j Hids Hids'); [| | | | |exact Er|exact Er'].
    - cbn. rewrite E7, E8, E9, E10, E11, E12, E13. repeat split.
    - intros k. cbn [inputs_of in_values].
      destruct H as (Hd & _ & Har & _), H' as (Hd' & _ & Har' & _).
      destruct (C29_arrays_by_label 1 req md p n df ids lv ar req_spec Hd Har) as ((L1 & _ & A) & _).
      destruct (C29_arrays_by_label 1 req md p n df' ids' lv' ar' req_spec Hd' Har') as ((L2 & _ & A') & _).
      destruct (nth_error (equations md n) k) as [[t v]|] eqn:Ek.
      + destruct (A k t v i id Ek Hi) as (x & Ex & Hx). destruct (A' k t v j id' Ek Hj) as (x' & Ex' & Hx').
        rewrite (oarr1_entry _ _ _ _ Ex), (oarr1_entry _ _ _ _ Ex').
        eapply (same_handed_over md n); [exact Hs| |exact Hx|exact Hx'].
        apply (equations_period md n t v). now apply nth_error_In in Ek.
      + apply nth_error_None in Ek. rewrite !nth_overflow by lia. unfold oarr1. now destruct i, j.
    - intros t k Hk. cbn [inputs_of in_controls].
      destruct H as (Hd & _ & Har & _), H' as (Hd' & _ & Har' & _).
      destruct (C29_arrays_by_label 1 req md p n df ids lv ar req_spec Hd Har) as (_ & (L1 & _ & A) & _).
      destruct (C29_arrays_by_label 1 req md p n df' ids' lv' ar' req_spec Hd' Har') as (_ & (L2 & _ & A') & _).
      destruct (Nat.lt_ge_cases t n) as [Ht|Ht].
      + destruct (nth_error ("constant"%string :: controls_of md) k) as [x0|] eqn:Ek.
        2:{ apply nth_error_None in Ek. simpl in Ek. lia. }
        destruct (A t i id k x0 Ht Hi Ek) as (x & Ex & Hx). destruct (A' t j id' k x0 Ht Hj Ek) as (x' & Ex' & Hx').
        rewrite (oarr2_entry _ _ _ _ _ Ex), (oarr2_entry _ _ _ _ _ Ex').
        eapply (same_handed_over md n); [exact Hs|exact Ht|exact Hx|exact Hx'].
      + rewrite !nth_overflow by lia. unfold oarr2, oarr1. destruct i, j, k; reflexivity.
    - intros t k Hk. cbn [inputs_of in_observed].
      destruct H as (Hd & _ & Har & _), H' as (Hd' & _ & Har' & _).
      destruct (C29_arrays_by_label 1 req md p n df ids lv ar req_spec Hd Har) as (_ & _ & (L1 & _ & A)).
      destruct (C29_arrays_by_label 1 req md p n df' ids' lv' ar' req_spec Hd' Har') as (_ & _ & (L2 & _ & A')).
      destruct (Nat.lt_ge_cases t n) as [Ht|Ht].
      + destruct (nth_error (observed_of md) k) as [x0|] eqn:Ek.
        2:{ apply nth_error_None in Ek. lia. }
        destruct (A t i id k x0 Ht Hi Ek) as (x & Ex & Hx). destruct (A' t j id' k x0 Ht Hj Ek) as (x' & Ex' & Hx').
        rewrite (oarr2_entry _ _ _ _ _ Ex), (oarr2_entry _ _ _ _ _ Ex').
        eapply (same_handed_over md n); [exact Hs|exact Ht|exact Hx|exact Hx'].
      + rewrite !nth_overflow by lia. unfold oarr2, oarr1. destruct i, j, k; reflexivity.
    - intros m _. cbn [initial_belief be_states be_chols be_logw].
      unfold arr3, arr4, arr2. rewrite E1, E2, E3, E4, E5, E6.
      assert (Hnr : forall X (x : X) d q l, (q < l)%nat -> nth q (repeat x l) d = x).
      { intros X x d q l Hq. revert q Hq. induction l as [|l IHl]; intros q Hq; [lia|].
        destruct q; [reflexivity|]. simpl. apply IHl. lia. }
      unfold arr3, arr2. rewrite !Hnr by assumption. split; [intros a _; reflexivity|]. split; [intros a b _ _; reflexivity|reflexivity]. }
  unfold contribution_of. clear -Hsame. induction Hsame as [|r r' l l' [Hr _] _ IH]; [reflexivity|].
  cbn [map sum_list fold_right] in *. rewrite Hr. f_equal. exact IH.
Qed.
Print Assumptions C43_individuals_independent.

(** Individual 5 alone has the same data as among the others. *)
Definition alone_df : frame Z :=
  mk_frame (fr_columns ex_df) [5; 6]%Z [10; 20; 30]%Z
    (mk_drow 6 10 (cells [("a", 8); ("s", 3); ("c", 1); ("Q1", 1); ("Q2", 8); ("x1", 9); ("inc", 2)]%string%Z)
     :: mk_drow 6 20 (cells [("a", 8); ("s", 3); ("c", 1); ("Q1", 1); ("Q2", 8); ("x1", 9); ("inc", 2)]%string%Z)
     :: mk_drow 6 30 (cells [("a", 8); ("b", 3); ("c", 1); ("Q1", 1); ("Q2", 8); ("x1", 9); ("inc", 2)]%string%Z)
     :: filter (fun r => Z.eqb (dr_id r) 5) (fr_rows ex_df)).

Example C43_nonvacuous :
  local_qr gram_schmidt /\
  (forall c : dict (list R), local_transition 2 3 (fun row f => row f * row 2%nat)) /\
  nth_error ex_ids 2 = Some 5%Z /\ nth_error [5; 6]%Z 0 = Some 5%Z /\
  same_data 3 (real_frame ex_df) ex_lv 5 (real_frame alone_df) ex_lv 5 /\
  process_data 1%Z Z.eqb alone_df (p_labels single_p) (p_update single_p) (p_anch single_p) true <> Err ValueError.
Proof.
  split; [apply gram_schmidt_local|]. split.
  { intros _ v w Hvw f Hf. rewrite !Hvw by lia. reflexivity. }
  split; [reflexivity|]. split; [reflexivity|]. split; [|vm_compute; discriminate].
  intros t x Ht. destruct t as [|[|[|t]]]; [reflexivity..|lia].
Qed.

(** * C44 *)

Section Debug.
  Variable qr : qr_function.
  Variable nan : R.
  Variable tfunc : dict (list R) -> vec -> vec.

  Lemma scan_debug d n_obs kappa ps controls observed args : forall ca,
    match scan qr nan tfunc d n_obs kappa ps controls observed false ca args,
          scan qr nan tfunc d n_obs kappa ps controls observed true ca args with
    | Ok (c1, o1), Ok (c2, o2) => c1 = c2 /\ map io_loglikes o1 = map io_loglikes o2
    | Err e, Err e' => e = e'
    | _, _ => False
    end.
  Proof.
    induction args as [|a args IH]; intros ca; [split; reflexivity|].
    cbn [scan]. unfold scan_body. destruct (kalman_predict _ _ _ _ _ _ _ _ _ _ _ _ _ _) as [pr|e]; cbn [rbind].
    2:{ reflexivity. }
    cbn [fst snd].
    match goal with |- context [scan _ _ _ _ _ _ _ _ _ false ?c args] => specialize (IH c) end.
    destruct (scan _ _ _ _ _ _ _ _ _ false _ args) as [[c1 o1]|e1], (scan _ _ _ _ _ _ _ _ _ true _ args) as [[c2 o2]|e2];
      cbn [rbind fst snd]; try contradiction; [|exact IH].
    destruct IH as [-> Ho]. split; [reflexivity|]. cbn [map io_loglikes]. now rewrite Ho.
  Qed.

  (** The likelihood with and without debug output: one is defined iff the other is,
      with the same value and contributions, and the same errors. *)
  Theorem C44_debug_agrees :
    forall md df, 
      match loglike_function qr nan tfunc md df false, loglike_function qr nan tfunc md df true with
      | Ok f, Ok g => forall params,
          match f params, g params with
          | Ok out, Ok out' => out_value out = out_value out' /\
              (forall i, out_contributions out i = out_contributions out' i) /\
              out_debug out = None /\ out_debug out' <> None
          | Err e, Err e' => e = e'
          | _, _ => False
          end
      | Err e, Err e' => e = e'
      | _, _ => False
      end.
  Proof.
    intros md df. unfold loglike_function.
    destruct (process_model md) as [p|e]; cbn [rbind]; [|reflexivity].
    destruct (process_data _ _ _ _ _ _ _) as [ar|e]; cbn [rbind]; [|reflexivity].
    intros params. destruct (get_params_vec params (params_index_of p)) as [v|e]; cbn [rbind]; [|reflexivity].
    unfold log_likelihood. destruct (parse_for _ _ _ _ _ _) as [ps|e]; cbn [rbind]; [|reflexivity].
    destruct (loop_args p ps (ar_meas ar)) as [args|e]; cbn [rbind]; [|reflexivity].
    match goal with |- context [scan _ _ _ ?d ?n ?k _ ?c ?o false ?ca args] =>
      pose proof (scan_debug d n k ps c o args ca) as H end.
    destruct (scan _ _ _ _ _ _ _ _ _ false _ args) as [[c1 o1]|e1], (scan _ _ _ _ _ _ _ _ _ true _ args) as [[c2 o2]|e2];
      cbn [rbind snd]; try contradiction; [|exact H].
    destruct H as [_ Ho]. cbn [out_value out_contributions out_debug].
    assert (Hl : length o1 = length o2) by (rewrite <- (map_length io_loglikes o1), Ho; apply map_length).
    assert (Hk : forall k, io_loglikes (nth k o1 dummy_iter) = io_loglikes (nth k o2 dummy_iter)).
    { intros k. rewrite <- !(map_nth io_loglikes). now rewrite Ho. }
    rewrite Hl. split; [|split; [|split; [reflexivity|discriminate]]].
    - apply rsum_ext. intros k _. apply rsum_ext. intros i _. now rewrite Hk.
    - intros i. apply rsum_ext. intros k _. now rewrite Hk.
  Qed.
End Debug.
Print Assumptions C44_debug_agrees.

Lemma map_fst_combine {A B} (l1 : list A) (l2 : list B) :
  length l1 = length l2 -> map fst (combine l1 l2) = l1.
Proof.
  revert l2. induction l1 as [|x l1 IH]; intros [|y l2] H; try discriminate; [reflexivity|].
  simpl. f_equal. apply IH. now injection H.
Qed.

Lemma get_params_vec_self {A} idx (vals : list A) : length vals = length idx ->
  get_params_vec (combine idx vals) idx = Ok vals.
Proof.
  intros H. unfold get_params_vec. rewrite map_fst_combine, map_snd_combine by congruence.
  rewrite (proj2 (labels_eqb_spec idx idx) eq_refl).
  assert (Ha : forallb (fun lb => label_mem lb idx) idx = true).
  { apply forallb_forall. intros x Hx. apply (proj2 (label_mem_In x idx)). exact Hx. }
  now rewrite Ha.
Qed.

Lemma single_params_length : length single_params = length (params_index_of single_p).
Proof. unfold single_params. now rewrite map_length, seq_length. Qed.

Example C44_nonvacuous : forall qr nan tfunc, exists f,
  loglike_function qr nan tfunc single_model (real_frame ex_df) false = Ok f /\
  exists out, f (combine (params_index_of single_p) single_params) = Ok out.
Proof.
  intros qr nan tfunc. destruct single_example as (ar & ps & H). unfold loglike_function.
  rewrite single_model_accepted. cbn [rbind].
  assert (Har : process_data 1 req (real_frame ex_df) (p_labels single_p) (p_update single_p) (p_anch single_p) true = Ok ar)
    by apply H.
  rewrite Har. cbn [rbind]. eexists. split; [reflexivity|].
  assert (Hv : get_params_vec (combine (params_index_of single_p) single_params) (params_index_of single_p)
               = Ok single_params).
  { apply get_params_vec_self. apply single_params_length. }
  cbv beta. rewrite Hv. cbn [rbind].
  destruct (likelihood_events qr nan tfunc _ _ _ _ _ _ _ _ _ false H) as (recs & out & _ & _ & E & _);
    [|eauto]. apply shapes_fit_spec. right. right. reflexivity.
Qed.

(** * C45 *)

Section AnchoringUpdates.
  Variable qr : qr_function.
  Variable nan : R.
  Variable tfunc : dict (list R) -> vec -> vec.

  (** One iteration with an anchoring equation: the states after the update are the
      states before it, and without a transition the states and Cholesky factors that
      are passed on are unchanged as well. The contribution to the likelihood and
      the new weights are those of a measurement update. *)
  Theorem C45_anchoring_update :
    forall d n_obs kappa ps controls observed debug ca la ca' io,
      la_is_measurement la = false ->
      scan_body qr nan tfunc d n_obs kappa ps controls observed debug ca la = Ok (ca', io) ->
      io_states io = ca_states ca /\
      (la_is_predict la = false -> ca_states ca' = ca_states ca /\ ca_chols ca' = ca_chols ca) /\
      let up := kalman_update qr nan (n_mixtures d) (n_latent d) (n_controls d) (ca_states ca)
                  (ca_chols ca) (la_loadings la) (la_control_params la) (la_meas_sd la)
                  (la_measurements la) (oarr2 (wrap [] controls (la_period la))) (ca_logw ca) in
      io_loglikes io = up_loglikes up /\ ca_logw ca' = up_logw up.
  Proof.
    intros d n_obs kappa ps controls observed debug ca la ca' io Ha E. unfold scan_body in E.
    rewrite Ha in E. apply rbind_ok in E as (x & Ex & E). injection E as <- <-.
    cbn [io_states io_loglikes ca_states ca_chols ca_logw]. split; [reflexivity|]. split; [|split; reflexivity].
    intros ->. split; reflexivity.
  Qed.

  (** Iterations that differ at most in what an anchoring equation reads. *)
  Definition same_but_anchoring (a b : loop_arg) : Prop :=
    la_period a = la_period b /\ la_is_measurement a = la_is_measurement b /\
    la_is_predict a = la_is_predict b /\
    (la_is_measurement a = true -> a = b).

  Lemma scan_ignores d n_obs kappa ps controls observed debug : forall args args',
    Forall2 same_but_anchoring args args' -> forall ca ca',
    ca_states ca = ca_states ca' -> ca_chols ca = ca_chols ca' ->
    match scan qr nan tfunc d n_obs kappa ps controls observed debug ca args,
          scan qr nan tfunc d n_obs kappa ps controls observed debug ca' args' with
    | Ok r, Ok r' => map io_states (snd r) = map io_states (snd r')
    | Err e, Err e' => e = e'
    | _, _ => False
    end.
  Proof.
    induction 1 as [|a b args args' (Hp & Hm & Hi & Hab) _ IH]; intros ca ca' Hs Hc; [reflexivity|].
    cbn [scan]. unfold scan_body. rewrite <- Hp, <- Hm, <- Hi, <- Hs, <- Hc.
    assert (Es : (if la_is_measurement a then
              up_states (kalman_update qr nan (n_mixtures d) (n_latent d) (n_controls d) (ca_states ca)
                (ca_chols ca) (la_loadings b) (la_control_params b) (la_meas_sd b)
                (la_measurements b) (oarr2 (wrap [] controls (la_period a))) (ca_logw ca')) else ca_states ca)
            = (if la_is_measurement a then
              up_states (kalman_update qr nan (n_mixtures d) (n_latent d) (n_controls d) (ca_states ca)
                (ca_chols ca) (la_loadings a) (la_control_params a) (la_meas_sd a)
                (la_measurements a) (oarr2 (wrap [] controls (la_period a))) (ca_logw ca)) else ca_states ca)).
    { destruct (la_is_measurement a); [|reflexivity]. now rewrite Hab. }
    assert (Ec : (if la_is_measurement a then
              up_chols (kalman_update qr nan (n_mixtures d) (n_latent d) (n_controls d) (ca_states ca)
                (ca_chols ca) (la_loadings b) (la_control_params b) (la_meas_sd b)
                (la_measurements b) (oarr2 (wrap [] controls (la_period a))) (ca_logw ca')) else ca_chols ca)
            = (if la_is_measurement a then
              up_chols (kalman_update qr nan (n_mixtures d) (n_latent d) (n_controls d) (ca_states ca)
                (ca_chols ca) (la_loadings a) (la_control_params a) (la_meas_sd a)
                (la_measurements a) (oarr2 (wrap [] controls (la_period a))) (ca_logw ca)) else ca_chols ca)).
    { destruct (la_is_measurement a); [|reflexivity]. now rewrite Hab. }
    rewrite Es, Ec.
    destruct (kalman_predict _ _ _ _ _ _ _ _ _ _ _ _ _ _) as [pr|e]; cbn [rbind fst snd]; [|reflexivity].
    match goal with |- match rbind (scan _ _ _ _ _ _ _ _ _ _ ?x _) _ with _ => _ end =>
      match goal with |- context [scan _ _ _ _ _ _ _ _ _ _ ?y args'] =>
        specialize (IH x y eq_refl eq_refl); destruct (scan _ _ _ _ _ _ _ _ _ _ x args) as [[c1 o1]|e1],
          (scan _ _ _ _ _ _ _ _ _ _ y args') as [[c2 o2]|e2] end end;
      cbn [rbind fst snd] in *; try contradiction; [|exact IH].
    cbn [map io_states]. now rewrite IH.
  Qed.

  Lemma loop_args_ignore p ps meas meas' :
    length meas = length meas' ->
    (forall k r, nth_error (p_update p) k = Some r -> is_measurement_row r = true -> nth k meas [] = nth k meas' []) ->
    match loop_args p ps meas, loop_args p ps meas' with
    | Ok a, Ok b => Forall2 same_but_anchoring a b
    | Err e, Err e' => e = e'
    | _, _ => False
    end.
  Proof.
    intros Hl H. unfold loop_args. rewrite <- Hl. destruct (_ && _)%bool; [|reflexivity].
    assert (G : forall ks, (forall k, In k ks -> (k < length (p_update p))%nat) ->
       Forall2 same_but_anchoring
        (map (fun k => mk_loop (iteration_to_period (last (l_periods (p_labels p)) 0%nat)
           (nth k (map u_period (p_update p)) 0%nat)) (arr2 (ps_loadings ps) k) (arr2 (ps_controls ps) k)
           (arr1 (ps_meas_sds ps) k) (oarr1 (nth k meas [])) (nth k (map is_measurement_row (p_update p)) false)
           (nth k (is_predict_iteration (map u_period (p_update p))) false)) ks)
        (map (fun k => mk_loop (iteration_to_period (last (l_periods (p_labels p)) 0%nat)
           (nth k (map u_period (p_update p)) 0%nat)) (arr2 (ps_loadings ps) k) (arr2 (ps_controls ps) k)
           (arr1 (ps_meas_sds ps) k) (oarr1 (nth k meas' [])) (nth k (map is_measurement_row (p_update p)) false)
           (nth k (is_predict_iteration (map u_period (p_update p))) false)) ks)).
    { induction ks as [|k ks IHk]; intros Hk; [constructor|]. cbn [map]. constructor.
      - repeat split. cbn [la_is_measurement]. intros Hm.
        assert (Hk' : (k < length (p_update p))%nat) by (apply Hk; now left).
        destruct (nth_error (p_update p) k) as [r|] eqn:Er; [|apply nth_error_None in Er; lia].
        rewrite (nth_of_nth_error _ _ _ false (map_nth_error is_measurement_row _ _ Er)) in Hm.
        now rewrite (H k r Er Hm).
      - apply IHk. intros k' Hk'. apply Hk. now right. }
    apply G. intros k Hk. apply in_seq in Hk. lia.
  Qed.

  (** The states after every update, and hence all filtered states, do not depend on
      the values of the anchoring outcomes: data arrays that differ only in the rows of
      anchoring equations yield the same states. *)
  Theorem C45_states_ignore_outcomes :
    forall md p n ar ar' params,
      wf_dicts md -> process_model md = Ok p -> has_n_periods md n ->
      ar_controls ar = ar_controls ar' -> ar_observed ar = ar_observed ar' ->
      length (ar_meas ar) = length (ar_meas ar') ->
      (forall k t v, nth_error (equations md n) k = Some (t, v) -> is_anchoring_equation md v = false ->
         nth k (ar_meas ar) [] = nth k (ar_meas ar') []) ->
      match log_likelihood qr nan tfunc p ar true params, log_likelihood qr nan tfunc p ar' true params with
      | Ok out, Ok out' => exists dbg dbg', out_debug out = Some dbg /\ out_debug out' = Some dbg' /\
          forall k, do_filtered_states dbg k = do_filtered_states dbg' k
      | Err e, Err e' => e = e'
      | _, _ => False
      end.
  Proof.
    intros md p n ar ar' params Hwf Hp Hn Hc Ho Hl Hm. unfold log_likelihood. rewrite <- Hc, <- Ho.
    destruct (parse_for _ _ _ _ _ _) as [ps|e]; cbn [rbind]; [|reflexivity].
    assert (Hm' : forall k r, nth_error (p_update p) k = Some r -> is_measurement_row r = true ->
              nth k (ar_meas ar) [] = nth k (ar_meas ar') []).
    { intros k r Hk Hr. apply (Hm k (u_period r) (u_var r)).
      - rewrite (equations_update md p n Hwf Hp Hn). now apply (map_nth_error u_key).
      - rewrite (row_anchoring md p n Hwf Hp Hn) by (now apply nth_error_In in Hk). now rewrite Hr. }
    pose proof (loop_args_ignore p ps (ar_meas ar) (ar_meas ar') Hl Hm') as HA.
    destruct (loop_args p ps (ar_meas ar)) as [a|e], (loop_args p ps (ar_meas ar')) as [b|e']; try contradiction;
      cbn [rbind]; [|exact HA].
    match goal with |- context [scan _ _ _ ?d ?no ?ka _ ?c ?o true ?ca a] =>
      pose proof (scan_ignores d no ka ps c o true a b HA ca ca eq_refl eq_refl) as HS end.
    destruct (scan _ _ _ _ _ _ _ _ _ true _ a) as [[c1 o1]|e1], (scan _ _ _ _ _ _ _ _ _ true _ b) as [[c2 o2]|e2];
      try contradiction; cbn [rbind snd] in *; [|exact HS].
    eexists _, _. split; [reflexivity|]. split; [reflexivity|]. intros k. cbn [do_filtered_states].
    rewrite <- !(map_nth io_states). now rewrite HS.
  Qed.
End AnchoringUpdates.
Print Assumptions C45_anchoring_update.
Print Assumptions C45_states_ignore_outcomes.

(** The anchoring outcomes of the example are rows of the data array, and other rows
    belong to measurements. *)
Example C45_nonvacuous :
  wf_dicts single_model /\ process_model single_model = Ok single_p /\ has_n_periods single_model 3 /\
  (exists k t v, nth_error (equations single_model 3) k = Some (t, v) /\ is_anchoring_equation single_model v = true) /\
  (exists k t v, nth_error (equations single_model 3) k = Some (t, v) /\ is_anchoring_equation single_model v = false).
Proof.
  destruct single_example as (ar & ps & H).
  split; [apply H|]. split; [apply H|]. split; [apply H|]. split.
  - exists 8%nat. vm_compute. eauto.
  - exists 0%nat. vm_compute. eauto.
Qed.

(** * C46 and C47 *)

Lemma logsumexp2_ln a b : logsumexp2 a b = ln (exp a + exp b).
Proof. unfold logsumexp2. rewrite logsumexp_ln by lia. f_equal. cbn [rsum]. ring. Qed.

Lemma logsumexp2_lower a b : a < logsumexp2 a b /\ b < logsumexp2 a b.
Proof.
  rewrite logsumexp2_ln. pose proof (exp_pos a). pose proof (exp_pos b). split.
  - rewrite <- (ln_exp a) at 1. apply ln_increasing; lra.
  - rewrite <- (ln_exp b) at 1. apply ln_increasing; lra.
Qed.

Lemma logsumexp2_upper a b : logsumexp2 a b <= Rmax a b + ln 2.
Proof.
  rewrite logsumexp2_ln. rewrite <- (ln_exp (Rmax a b)) at 1.
  rewrite <- ln_mult by (try apply exp_pos; lra).
  assert (Hle : forall x y, x <= y -> exp x <= exp y).
  { intros x y [Hxy|Hxy]; [left; now apply exp_increasing|right; now f_equal]. }
  pose proof (exp_pos a). pose proof (exp_pos b).
  pose proof (Hle _ _ (Rmax_l a b)). pose proof (Hle _ _ (Rmax_r a b)).
  assert (Hs : exp a + exp b <= exp (Rmax a b) * 2) by lra.
  destruct Hs as [Hs|Hs]; [left; apply ln_increasing; lra|right; now f_equal].
Qed.

Lemma logsumexp2_mono a a' b : a < a' -> logsumexp2 a b < logsumexp2 a' b.
Proof.
  intros H. rewrite !logsumexp2_ln. apply ln_increasing.
  - pose proof (exp_pos a). pose proof (exp_pos b). lra.
  - pose proof (exp_increasing _ _ H). lra.
Qed.

Lemma Rmult_Rmax h a b : 0 < h -> Rmax (h * a) (h * b) = h * Rmax a b.
Proof. intros H. now rewrite RmaxRmult by lra. Qed.

(** The soft maximum of the code, for positive hardness. *)
Lemma soft_max_bounds h x l : 0 < h ->
  Rmax x l < logsumexp2 (h * x) (h * l) / h <= Rmax x l + ln 2 / h.
Proof.
  intros Hh. pose proof (logsumexp2_lower (h * x) (h * l)) as [H1 H2].
  pose proof (logsumexp2_upper (h * x) (h * l)) as H3. rewrite (Rmult_Rmax h x l Hh) in H3.
  set (y := logsumexp2 (h * x) (h * l)) in *.
  assert (Ey : y = h * (y / h)) by (field; lra).
  assert (El : ln 2 = h * (ln 2 / h)) by (field; lra).
  split.
  - rewrite Ey in H1, H2. apply Rmult_lt_reg_l in H1, H2; try assumption. unfold Rmax. destruct (Rle_dec x l); lra.
  - rewrite Ey, El, <- Rmult_plus_distr_l in H3. now apply Rmult_le_reg_l in H3.
Qed.

Lemma soft_max_mono h x x' l : 0 < h -> x < x' ->
  logsumexp2 (h * x) (h * l) / h < logsumexp2 (h * x') (h * l) / h.
Proof.
  intros Hh Hx. apply Rmult_lt_compat_r; [now apply Rinv_0_lt_compat|].
  apply logsumexp2_mono. now apply Rmult_lt_compat_l.
Qed.

Lemma Rmax_opp x u : Rmax (- x) (- u) = - Rmin x u.
Proof. unfold Rmax, Rmin. destruct (Rle_dec (-x) (-u)), (Rle_dec x u); lra. Qed.

Lemma soft_upper_eq lh uh x u :
  soft_clip None (Some u) lh uh x = - (logsumexp2 (uh * - x) (uh * - u) / uh).
Proof. cbn. unfold Rdiv. ring. Qed.

(** Soft clipping with one bound approximates the maximum resp. the minimum: from
    above resp. from below, up to log(2) / hardness; it preserves the strict order.
    Without bounds it is the identity. *)
Theorem C46_soft_clipping :
  (forall lh uh x, soft_clip None None lh uh x = x) /\
  (forall l lh uh x, 0 < lh ->
     Rmax x l < soft_clip (Some l) None lh uh x <= Rmax x l + ln 2 / lh) /\
  (forall u lh uh x, 0 < uh ->
     Rmin x u - ln 2 / uh <= soft_clip None (Some u) lh uh x < Rmin x u) /\
  (forall lower upper lh uh x x', 0 < lh -> 0 < uh -> x < x' ->
     soft_clip lower upper lh uh x < soft_clip lower upper lh uh x').
Proof.
  split; [reflexivity|]. split; [|split].
  - intros l lh uh x H. cbn. now apply soft_max_bounds.
  - intros u lh uh x H. rewrite soft_upper_eq.
    pose proof (soft_max_bounds uh (- x) (- u) H) as [H1 H2]. rewrite Rmax_opp in H1, H2. lra.
  - intros lower upper lh uh x x' Hl Hu Hx.
    assert (Hy : soft_clip lower None lh uh x < soft_clip lower None lh uh x').
    { destruct lower as [l|]; cbn; [|assumption]. now apply soft_max_mono. }
    destruct upper as [u|]; [|assumption].
    assert (E : forall z, soft_clip lower (Some u) lh uh z = - (logsumexp2 (uh * - soft_clip lower None lh uh z) (uh * - u) / uh)).
    { intros z. cbn. destruct lower; unfold Rdiv; ring. }
    rewrite !E. apply Ropp_lt_contravar. apply soft_max_mono; lra.
Qed.
Print Assumptions C46_soft_clipping.

Example C46_nonvacuous :
  2 < soft_clip (Some 2) None 1 1 (-3) <= 2 + ln 2 /\ soft_clip None (Some 2) 1 1 5 < 2.
Proof.
  destruct C46_soft_clipping as (_ & H1 & H2 & _).
  specialize (H1 2 1 1 (-3) Rlt_0_1). specialize (H2 2 1 1 5 Rlt_0_1).
  rewrite Rmax_right in H1 by lra. rewrite Rmin_right in H2 by lra. unfold Rdiv in *. rewrite Rinv_1 in *. lra.
Qed.

(** With both bounds the upper bound always holds strictly, the lower one only up to
    log(2) / upper hardness. Missing: the lower bound itself. *)
Theorem C47_both_bounds_partial :
  forall l u lh uh x, 0 < lh -> 0 < uh -> l <= u ->
    l - ln 2 / uh < soft_clip (Some l) (Some u) lh uh x < u.
Proof.
  intros l u lh uh x Hl Hu Hlu. set (y := logsumexp2 (lh * x) (lh * l) / lh).
  assert (E : soft_clip (Some l) (Some u) lh uh x = soft_clip None (Some u) lh uh y) by reflexivity.
  rewrite E. destruct C46_soft_clipping as (_ & _ & H & _). specialize (H u lh uh y Hu).
  assert (Hy : l < y).
  { pose proof (soft_max_bounds lh x l Hl) as [Hy _]. pose proof (Rmax_r x l). subst y. lra. }
  assert (Hm : l <= Rmin y u) by (apply Rmin_glb; lra).
  pose proof (Rmin_r y u). split; [|lra].
  destruct (Rle_lt_or_eq_dec _ _ Hm) as [Hm'|Hm']; [lra|].
  (* l = u < y: the soft minimum is above u - ln 2 / uh *)
  assert (Hul : u = l) by (unfold Rmin in Hm'; destruct (Rle_dec y u); lra).
  subst u. rewrite soft_upper_eq.
  assert (Hs : logsumexp2 (uh * - y) (uh * - l) < uh * - l + ln 2).
  { rewrite logsumexp2_ln. rewrite <- (ln_exp (uh * - l)) at 2. rewrite <- ln_mult by (try apply exp_pos; lra).
    apply ln_increasing.
    - pose proof (exp_pos (uh * - y)). pose proof (exp_pos (uh * - l)). lra.
    - assert (exp (uh * - y) < exp (uh * - l)); [|lra]. apply exp_increasing. apply Rmult_lt_compat_l; lra. }
  apply (Rmult_lt_compat_r (/ uh)) in Hs; [|now apply Rinv_0_lt_compat].
  replace ((uh * - l + ln 2) * / uh) with (- l + ln 2 / uh) in Hs by (field; lra).
  unfold Rdiv in *. lra.
Qed.
Print Assumptions C47_both_bounds_partial.

(** Full statement of C47: l <= result <= u whenever l <= u. It is false: with equal
    bounds the result is always below both. *)
Theorem C47_refuted :
  ~ (forall l u lh uh x, 0 < lh -> 0 < uh -> l <= u -> l <= soft_clip (Some l) (Some u) lh uh x <= u).
Proof.
  intros H. destruct (C47_both_bounds_partial 0 0 1 1 0) as [_ H2]; [lra..|].
  destruct (H 0 0 1 1 0) as [H3 _]; lra.
Qed.
Print Assumptions C47_refuted.

(** It also fails for bounds that are far apart, with hardness 1: for lower bound 0 and
    upper bound 1, small values are clipped below 0. *)
Theorem C47_refuted_distinct_bounds :
  exists l u x, l + 1 <= u /\ soft_clip (Some l) (Some u) 1 1 x < l.
Proof.
  exists 0, 1, (-1). split; [lra|].
  set (y := logsumexp2 (1 * -1) (1 * 0) / 1).
  assert (E : soft_clip (Some 0) (Some 1) 1 1 (-1) = - (logsumexp2 (1 * - y) (1 * - (1)) / 1)).
  { rewrite <- (soft_upper_eq 1 1 y 1). reflexivity. }
  rewrite E. unfold Rdiv. rewrite Rinv_1, Rmult_1_r, !Rmult_1_l.
  assert (Ey : y = ln (exp (-1) + 1)).
  { unfold y. rewrite logsumexp2_ln. rewrite Rmult_0_r, exp_0. unfold Rdiv. rewrite Rinv_1, Rmult_1_r, Rmult_1_l. reflexivity. }
  rewrite logsumexp2_ln. set (q := exp (-1)) in *.
  assert (Hq : 0 < q) by apply exp_pos.
  assert (Eq : exp (- y) = / (q + 1)).
  { rewrite Ey, exp_Ropp, exp_ln by lra. reflexivity. }
  rewrite Eq. replace (exp (-(1))) with q by (unfold q; f_equal; lra).
  assert (Hgt : 0 < ln (/ (q + 1) + q)); [|lra].
  rewrite <- ln_1. apply ln_increasing; [lra|].
  assert (Hd : / (q + 1) + q - 1 = q * q / (q + 1)) by (field; lra).
  assert (Hp : 0 < q * q / (q + 1)).
  { apply Rdiv_lt_0_compat; [now apply Rmult_lt_0_compat|lra]. }
  lra.
Qed.
Print Assumptions C47_refuted_distinct_bounds.

Example C47_nonvacuous :
  -1 - ln 2 / 3 < soft_clip (Some (-1)) (Some 5) 2 3 (-100) < 5.
Proof. apply C47_both_bounds_partial; lra. Qed.

(** * C66 *)

(** An individual whose value is missing in equation [k] gets exactly the clipped
    zero for this update. *)
Lemma missing_contribution qr nan nm nl nc inp anchoring k t b i :
  in_values inp k i = None ->
  re_contribution (snd (update_event qr nan nm nl nc inp anchoring k t b)) i = 0.
Proof. intros H. unfold update_event. cbn. now rewrite H. Qed.

(** The equations of a list of events, in order. *)
Fixpoint equation_numbers (evs : list event) : list nat :=
  match evs with
  | [] => []
  | Measure k _ :: evs' | Anchor k _ :: evs' => k :: equation_numbers evs'
  | Transition _ :: evs' => equation_numbers evs'
  end.

Lemma code_events_numbers l : forall k, equation_numbers (code_events k l) = seq k (length l).
Proof.
  induction l as [|tb l IH]; intros k; [reflexivity|]. cbn [code_events length seq].
  assert (E : equation_numbers ((match l with
                  | tb' :: _ => if (fst tb' =? S (fst tb))%nat then [Transition (fst tb)] else []
                  | [] => []
                  end) ++ code_events (S k) l) = seq (S k) (length l)).
  { destruct l as [|tb' l']; [apply IH|]. destruct (fst tb' =? S (fst tb))%nat; apply IH. }
  unfold ev. destruct (snd tb); cbn [equation_numbers]; now rewrite E.
Qed.

Lemma run_missing qr nan tfunc n_obs nm nl no nc kappa inp i evs : forall b recs,
  run qr nan tfunc n_obs nm nl no nc kappa inp evs b = Ok recs ->
  Forall2 (fun k r => in_values inp k i = None -> re_contribution r i = 0) (equation_numbers evs) recs.
Proof.
  induction evs as [|[k t|k t|t] evs IH]; intros b recs E; cbn [run] in E.
  - injection E as <-. constructor.
  - apply rbind_ok in E as (rest & Er & E). injection E as <-. cbn [equation_numbers]. constructor; [|eauto].
    exact (missing_contribution qr nan nm nl nc inp false k t b i).
  - apply rbind_ok in E as (rest & Er & E). injection E as <-. cbn [equation_numbers]. constructor; [|eauto].
    exact (missing_contribution qr nan nm nl nc inp true k t b i).
  - apply rbind_ok in E as (b' & _ & E). eapply IH, E.
Qed.

(** The likelihood as documented: an individual's contribution sums over the equations
    for which the individual has a value; a missing value contributes [c]. *)
Definition contributes_when_missing (c : R) (o : options) (ar : arrays R) (n_equations : nat)
    (dbg : debug_output) (out : output) : Prop :=
  forall i, out_contributions out i
    = rsum n_equations (fun k => match oarr1 (nth k (ar_meas ar) []) i with
                                 | Some _ => clip_with o (do_all_contributions dbg k i)
                                 | None => c
                                 end).

Lemma missing_clipped qr nan tfunc md p n df ids lv ar params ps out dbg :
  likelihood_setting md p n df ids lv ar params ps ->
  log_likelihood qr nan tfunc p ar true params = Ok out -> out_debug out = Some dbg ->
  contributes_when_missing (clip_with (p_options p) 0) (p_options p) ar (length (equations md n)) dbg out.
Proof.
  intros H E Hd i. destruct (C42_sum_of_contributions _ _ _ _ _ _ _ _ _ _ _ _ _ _ H E) as [_ Hc].
  rewrite (Hc dbg Hd i). apply rsum_ext. intros k Hk.
  destruct (oarr1 (nth k (ar_meas ar) []) i) as [x|] eqn:Ex; [reflexivity|]. f_equal.
  destruct (shapes_fit (length ids) (n_mixtures (p_dims p)) (n_observed (p_dims p))) eqn:Hfit.
  2:{ rewrite (likelihood_misfits qr nan tfunc md p n df ids lv ar params ps true H Hfit) in E; [discriminate|].
      intros Hu. rewrite (equations_update md p n), map_length, Hu in Hk by apply H. simpl in Hk. lia. }
  destruct (likelihood_events qr nan tfunc md p n df ids lv ar params ps true H Hfit)
    as (recs & out' & Er & Hl & E' & (_ & _ & _ & Hr)).
  rewrite E in E'. injection E' as <-. destruct (Hr eq_refl) as (dbg' & Hd' & _ & _ & Hrec).
  rewrite Hd in Hd'. injection Hd' as <-.
  destruct (nth_error recs k) as [r|] eqn:Erec.
  2:{ apply nth_error_None in Erec. rewrite (equations_update md p n), map_length in Hk by apply H. lia. }
  destruct (Hrec k r Erec) as (-> & _).
  pose proof (run_missing _ _ _ _ _ _ _ _ _ _ i _ _ _ Er) as HF. rewrite code_events_numbers in HF.
  assert (G : forall l s k (rs : list record), Forall2 (fun k r => in_values (inputs_of ps ar) k i = None -> re_contribution r i = 0) (seq s l) rs ->
            nth_error rs k = Some r -> in_values (inputs_of ps ar) (s + k)%nat i = None -> re_contribution r i = 0).
  { clear. induction l as [|l IH]; intros s k rs HF Hk Hv; inversion HF; subst; [now destruct k|].
    destruct k as [|k]; cbn [nth_error] in Hk.
    - injection Hk as ->. rewrite Nat.add_0_r in Hv. auto.
    - eapply (IH (S s) k); [eassumption|assumption|]. now replace (S s + k)%nat with (s + S k)%nat by lia. }
  apply (G _ 0%nat k recs HF Erec). exact Ex.
Qed.

(** Without clipping, missing values contribute nothing; with clipping every missing
    value contributes the clipped zero. Missing: that they contribute nothing with
    clipping, see C66_refuted. *)
Theorem C66_missing_values_partial :
  forall qr nan tfunc md p n df ids lv ar params ps out dbg,
    likelihood_setting md p n df ids lv ar params ps ->
    log_likelihood qr nan tfunc p ar true params = Ok out -> out_debug out = Some dbg ->
    contributes_when_missing (clip_with (p_options p) 0) (p_options p) ar (length (equations md n)) dbg out /\
    (o_clip_lower (p_options p) = None -> o_clip_upper (p_options p) = None ->
     contributes_when_missing 0 (p_options p) ar (length (equations md n)) dbg out).
Proof.
  intros qr nan tfunc md p n df ids lv ar params ps out dbg H E Hd.
  pose proof (missing_clipped _ _ _ _ _ _ _ _ _ _ _ _ _ _ H E Hd) as Hm. split; [exact Hm|].
  intros H1 H2. assert (E0 : clip_with (p_options p) 0 = 0) by (unfold clip_with; rewrite H1, H2; reflexivity).
  rewrite E0 in Hm. exact Hm.
Qed.
Print Assumptions C66_missing_values_partial.

Lemma rsum_pos_at n f k : (forall j, (j < n)%nat -> 0 <= f j) -> (k < n)%nat -> 0 < f k -> 0 < rsum n f.
Proof.
  induction n as [|n IH]; intros Hf Hk Hp; [lia|]. cbn [rsum].
  assert (Hn : 0 <= f n) by (apply Hf; lia).
  assert (Hs : forall m, (m <= n)%nat -> 0 <= rsum m f).
  { induction m as [|m IHm]; intros Hm; cbn [rsum]; [lra|]. specialize (Hf m). specialize (IHm ltac:(lia)).
    specialize (Hf ltac:(lia)). lra. }
  destruct (Nat.eq_dec k n) as [->|Hne]; [specialize (Hs n (le_n n)); lra|].
  assert (0 < rsum n f); [|lra]. apply IH; [intros j Hj; apply Hf; lia|lia|assumption].
Qed.

(** With the default options of the estimation, a missing value raises the log
    likelihood. *)
Theorem C66_refuted :
  exists md p n df ids lv ar params ps,
    likelihood_setting md p n df ids lv ar params ps /\
    forall qr nan tfunc, exists out dbg,
      log_likelihood qr nan tfunc p ar true params = Ok out /\ out_debug out = Some dbg /\
      ~ contributes_when_missing 0 (p_options p) ar (length (equations md n)) dbg out.
Proof.
  destruct single_example as (ar & ps & H). do 9 eexists. split; [exact H|]. intros qr nan tfunc.
  destruct (likelihood_events qr nan tfunc _ _ _ _ _ _ _ _ _ true H) as (recs & out & _ & _ & E & (_ & _ & _ & Hr)).
  { apply shapes_fit_spec. right. right. reflexivity. }
  destruct (Hr eq_refl) as (dbg & Hd & _). exists out, dbg. split; [exact E|]. split; [exact Hd|].
  intros H0. pose proof (missing_clipped _ _ _ _ _ _ _ _ _ _ _ _ _ _ H E Hd) as Hm.
  specialize (H0 0%nat). rewrite (Hm 0%nat) in H0.
  set (c0 := clip_with (p_options single_p) 0) in *.
  assert (Hc : 0 < c0).
  { unfold c0, clip_with.
    replace (o_clip_upper (p_options single_p)) with (@None QArith_base.Q) by (vm_compute; reflexivity).
    destruct (o_clip_lower (p_options single_p)) as [l|] eqn:El.
    2:{ vm_compute in El. discriminate. }
    cbn [option_map]. destruct C46_soft_clipping as (_ & Hs & _).
    destruct (Hs (Q2R l) (Q2R (o_clip_lower_hardness (p_options single_p)))
                (Q2R (o_clip_upper_hardness (p_options single_p))) 0) as [Hs' _].
    { replace (o_clip_lower_hardness (p_options single_p)) with 1%Q by (vm_compute; reflexivity).
      unfold Q2R. cbn. lra. }
    pose proof (Rmax_l 0 (Q2R l)). lra. }
  assert (Hpos : 0 < rsum (length (equations single_model 3))
            (fun k => match oarr1 (nth k (ar_meas ar) []) 0 with Some _ => 0 | None => c0 end)).
  { apply (rsum_pos_at _ _ 3%nat).
    - intros j _. destruct (oarr1 _ _); lra.
    - vm_compute. lia.
    - assert (Har : process_data 1 req (real_frame ex_df) (p_labels single_p) (p_update single_p) (p_anch single_p) true = Ok ar)
        by apply H.
      destruct (C29_arrays_by_label 1 req single_model single_p 3 (real_frame ex_df) ex_ids ex_lv ar req_spec
                  (real_setting _ _ _ _ _ _ single_setting) Har) as ((_ & _ & A) & _).
      destruct (A 3%nat 0%nat "Q1_cog"%string 0%nat 3%Z) as (w & Ew & [W1 W2]); [reflexivity|reflexivity|].
      rewrite (oarr1_entry _ _ _ _ Ew).
      assert (Hw : w = None); [|now rewrite Hw].
      destruct (classic (discarded 1 single_model 3 (real_frame ex_df) ex_lv 3%Z 0)) as [D|D]; [now apply W1|].
      rewrite (W2 D). rewrite real_value.
      replace (value 1%Z single_model ex_df ex_lv 3%Z 0 "Q1_cog") with (@None Z) by (vm_compute; reflexivity).
      reflexivity. }
  assert (Hsum : rsum (length (equations single_model 3)) (fun k => match oarr1 (nth k (ar_meas ar) []) 0 with Some _ => 0 | None => c0 end)
          + rsum (length (equations single_model 3)) (fun k => match oarr1 (nth k (ar_meas ar) []) 0 with
                   | Some _ => clip_with (p_options single_p) (do_all_contributions dbg k 0%nat) | None => 0 end)
          = rsum (length (equations single_model 3)) (fun k => match oarr1 (nth k (ar_meas ar) []) 0 with
                   | Some _ => clip_with (p_options single_p) (do_all_contributions dbg k 0%nat) | None => c0 end)).
  { rewrite <- rsum_plus. apply rsum_ext. intros k _. destruct (oarr1 _ _); ring. }
  lra.
Qed.
Print Assumptions C66_refuted.

(** * C13 for the likelihood function *)

(** The functions returned to the user read a DataFrame of parameters by its labels:
    the order of its rows is irrelevant, parameters with other labels are a ValueError,
    and otherwise the result is the likelihood at the vector in which every parameter
    has the position of its label. *)
Theorem C13_likelihood_reads_labels :
  forall qr nan tfunc md df debug f p ar,
    loglike_function qr nan tfunc md df debug = Ok f ->
    process_model md = Ok p ->
    process_data 1 req df (p_labels p) (p_update p) (p_anch p) true = Ok ar ->
    forall params, NoDup (map fst params) ->
      (forall params', Permutation params params' -> f params' = f params) /\
      (~ (forall lb, In lb (map fst params) <-> In lb (params_index_of p)) -> f params = Err ValueError) /\
      ((forall lb, In lb (map fst params) <-> In lb (params_index_of p)) ->
       exists vec, length vec = length (params_index_of p) /\
         (forall lb x, In (lb, x) params -> labelled (params_index_of p) vec lb x) /\
         f params = log_likelihood qr nan tfunc p ar debug vec).
Proof.
  intros qr nan tfunc md df debug f p ar Hf Hp Har params Hnd.
  unfold loglike_function in Hf. rewrite Hp in Hf. cbn [rbind] in Hf. rewrite Har in Hf. cbn [rbind] in Hf.
  injection Hf as <-. split; [|split].
  - intros params' Hperm. now rewrite (C13_row_order _ _ _ _ Hnd Hperm).
  - intros Hno. destruct (C13_errors R params (params_index_of p) Hnd) as (H1 & H2 & _).
    destruct (get_params_vec params (params_index_of p)) as [v|e] eqn:E.
    + exfalso. apply Hno. apply H1. eauto.
    + cbn [rbind]. f_equal. now apply H2.
  - intros Hyes. destruct (C13_errors R params (params_index_of p) Hnd) as (H1 & _ & H3).
    destruct (proj2 H1 Hyes) as [v E]. destruct (H3 v E) as [Hl Hlab]. exists v. split; [exact Hl|].
    split; [exact Hlab|]. now rewrite E.
Qed.
Print Assumptions C13_likelihood_reads_labels.

Example C13_likelihood_nonvacuous : forall qr nan tfunc, exists f ar,
  loglike_function qr nan tfunc single_model (real_frame ex_df) true = Ok f /\
  process_data 1 req (real_frame ex_df) (p_labels single_p) (p_update single_p) (p_anch single_p) true = Ok ar /\
  NoDup (map fst (rev (combine (params_index_of single_p) single_params))) /\
  forall lb, In lb (map fst (rev (combine (params_index_of single_p) single_params))) <-> In lb (params_index_of single_p).
Proof.
  intros qr nan tfunc. destruct single_example as (ar & ps & H).
  assert (Har : process_data 1 req (real_frame ex_df) (p_labels single_p) (p_update single_p) (p_anch single_p) true = Ok ar)
    by apply H.
  eexists _, ar. split; [|split; [exact Har|]].
  - unfold loglike_function. rewrite single_model_accepted. cbn [rbind]. rewrite Har. cbn [rbind]. reflexivity.
  - rewrite map_rev, map_fst_combine by (symmetry; apply single_params_length). split.
    + apply NoDup_rev. apply (C07_index_unique_partial single_model single_p).
      * apply H.
      * apply H.
      * apply H.
    + intros lb. symmetry. apply in_rev.
Qed.
