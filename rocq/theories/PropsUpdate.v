(** Moving parameters between a model and its parts (C119). *)
Require Import String Arith ZArith QArith Bool List Lia.
From Verif Require Import PyBase ListFacts StringFacts ModelSpec ProcessModel CheckModel SpecModel ProcessModelFacts AcceptFacts
  ParamsIndex SpecIndex IndexFacts ParseParams ParamsVec Constraints SpecConstraints ConstraintFacts ExampleModels PropsSpec PropsParse PropsConstraints
  Utilities SpecUtilities UtilitiesFacts PropsUtilities SpecSteps StepFacts PropsSteps SpecReduced PropsReduced PropsBounds SpecUpdate.
Import ListNotations.
Open Scope string_scope.
Open Scope list_scope.
Open Scope nat_scope.

(** ** Success does not depend on the cells of the table *)

Lemma processed_reduce params md t : reduce_params params md = Ok t -> exists p, process_model md = Ok p.
Proof. unfold reduce_params, index_from_model_dict. destruct (process_model md) as [p|]; [now exists p|discriminate]. Qed.

Lemma reduce_again md p params params2 M r : ready md p params2 -> wf_dicts M -> nested M md ->
  with_params reduce_params (Some params) M = Ok r -> exists t2, with_params reduce_params (Some params2) M = Ok (M, Some t2).
Proof.
  intros (Hwf & _ & Hp & Hc & _) HwfM Hne H. cbn [with_params] in *. apply rbind_ok in H as (t & Ht & _).
  destruct (reduce_params_nested md M p params2 Hwf Hp HwfM Hne Hc (processed_reduce _ _ _ Ht)) as (t2 & E & _). exists t2. now rewrite E.
Qed.

Lemma step_again s md p params params2 md' out : ready md p params2 -> positive_step s ->
  do_step s md (Some params) = Ok (md', out) -> exists t2, do_step s md (Some params2) = Ok (md', Some t2).
Proof.
  intros Hr Hs H. pose proof (step_result s md _ md' out H) as E. assert (HwfM : wf_dicts md') by (rewrite E; apply wf_after, Hr).
  assert (Hne : nested md' md) by (rewrite E; apply nested_after). clear E.
  destruct s as [a|a|a|k|]; cbn [do_step] in *.
  - apply remove_factors_unfold in H as (an & d & Ha & Hd & H). pose proof (with_params_model _ _ _ _ _ H) as E. rewrite <- E in H.
    destruct (reduce_again md p params params2 md' _ Hr HwfM Hne H) as [t2 H2]. exists t2. apply remove_factors_unfold. exists an, d. rewrite <- E. auto.
  - unfold remove_measurements in *. pose proof (with_params_model _ _ _ _ _ H) as E. rewrite <- E in *. exact (reduce_again md p params params2 md' _ Hr HwfM Hne H).
  - unfold remove_controls in *. destruct (md_controls md) as [cs|]; [|discriminate].
    pose proof (with_params_model _ _ _ _ _ H) as E. rewrite <- E in *. exact (reduce_again md p params params2 md' _ Hr HwfM Hne H).
  - destruct Hr as (Hwf & _ & Hp & Hc & Hv). destruct (C53_reduced_periods_partial md p params2 k Hwf Hp Hc Hv Hs) as (m & p' & t & E1 & _).
    exists t. rewrite reduce_n_periods_eq in *. rewrite E1. f_equal. f_equal.
    rewrite (with_params_model _ _ _ _ _ H). exact (with_params_model _ _ _ _ _ E1).
  - unfold switch_translog_to_linear in *. pose proof (with_params_model _ _ _ _ _ H) as E. rewrite <- E in *. exact (reduce_again md p params params2 md' _ Hr HwfM Hne H).
Qed.

Lemma steps_again steps : forall md p params params2 md' out, ready md p params -> ready md p params2 -> Forall positive_step steps ->
  do_steps steps md (Some params) = Ok (md', out) -> exists t2, do_steps steps md (Some params2) = Ok (md', Some t2).
Proof.
  induction steps as [|s steps IH]; intros md p params params2 md' out R R2 Hp H; cbn [do_steps] in *.
  - injection H as <- <-. now exists params2.
  - apply rbind_ok in H as ([m o] & H1 & H). cbn [fst snd] in H. inversion Hp as [|? ? P1 P2]; subst.
    destruct (step_again s md p params params2 m o R2 P1 H1) as [t2 H2].
    destruct (step_table s md p params m o R P1 H1) as (t1 & p1 & -> & R1 & _).
    destruct (step_table s md p params2 m (Some t2) R2 P1 H2) as (t & p2 & [= <-] & R2' & _).
    assert (p2 = p1) as -> by (destruct R1 as (_ & _ & A & _), R2' as (_ & _ & B & _); congruence).
    destruct (IH m p1 t1 t2 md' out R1 R2' P2 H) as [t3 H3]. exists t3. rewrite H2. exact H3.
Qed.

Lemma ready_unique md p t : ready md p t -> NoDup (pf_index t).
Proof. intros (_ & _ & _ & [H _] & _). exact H. Qed.

(** The table of a part: its rows are rows of the table, missing cells may have been filled. *)
Lemma part_derived md p params steps md' t : ready md p params -> positive_periods steps -> do_steps steps md (Some params) = Ok (md', Some t) ->
  NoDup (pf_index t) /\ In "value" (pf_columns t) /\ exists fill, derived fill params t.
Proof.
  intros R Hpos H. destruct steps as [|s rest] eqn:Es.
  - cbn in H. injection H as <- <-. split; [exact (ready_unique _ _ _ R)|]. split; [apply R|]. exists false. apply derived_refl.
  - rewrite <- Es in *. destruct (steps_table steps md p params md' (Some t) R (positive_all steps Hpos) ltac:(rewrite Es; discriminate) H)
      as (t0 & p' & [= <-] & R' & _ & D). split; [exact (ready_unique _ _ _ R')|]. split; [apply R'|]. eexists. exact D.
Qed.

(** ** What other tables say about a parameter *)

Lemma gives_dec o lb : NoDup (pf_index o) -> (exists v, gives o lb v) \/ forall v, ~ gives o lb v.
Proof.
  intros Hnd. destruct (row_value (pf_rows o) lb) as [cells|] eqn:E.
  - apply (row_value_In (pf_rows o) lb cells Hnd) in E.
    assert (D : cells "value" = PNan \/ cells "value" <> PNan) by (destruct (cells "value"); [now left|right; discriminate..]).
    destruct D as [D|D].
    + right. intros v (c & Hr & Ev & Hn). rewrite (row_unique o lb c cells Hnd Hr E) in Ev. congruence.
    + left. exists (cells "value"), cells. auto.
  - right. intros v (c & Hr & _). assert (F : In lb (pf_index o)) by now apply (in_map fst) in Hr. apply row_value_in in F. contradiction.
Qed.

Lemma gives_last_dec others lb : (forall o, In o others -> NoDup (pf_index o)) ->
  (exists v, gives_last others lb v) \/ forall o v, In o others -> ~ gives o lb v.
Proof.
  induction others as [|o others IH]; intros Hnd; [right; intros o v []|].
  destruct IH as [[v (b & x & a & -> & G & N)]|N]; [intros x Hx; apply Hnd; now right| |].
  - left. exists v, (o :: b), x, a. auto.
  - destruct (gives_dec o lb (Hnd o (or_introl eq_refl))) as [[v G]|G].
    + left. exists v, [], o, others. auto.
    + right. intros x v [<-|Hx]; [apply G|now apply N].
Qed.

Lemma same_position {A B} (rows : list (label * A)) (rows' : list (label * B)) lb c' : map fst rows' = map fst rows -> In (lb, c') rows' ->
  exists i c, nth_error rows i = Some (lb, c) /\ nth_error rows' i = Some (lb, c').
Proof.
  intros E Hin. apply In_nth_error in Hin as [i Hi]. exists i.
  assert (L : nth_error (map fst rows) i = Some lb) by (rewrite <- E, nth_error_map, Hi; reflexivity).
  rewrite nth_error_map in L. destruct (nth_error rows i) as [[l c]|]; [|discriminate]. injection L as ->. exists c. auto.
Qed.

(** ** Updating with parts of itself changes nothing *)

Theorem C119_update_with_own_parts :
  forall md p params parts,
    wf_dicts md -> good_names md -> process_model md = Ok p -> covers md params -> In "value" (pf_columns params) -> complete params ->
    (forall t, In t parts -> table_of_part md params t) ->
    exists out, update_parameter_values params parts = Ok out /\ same_table params out.
Proof.
  intros md p params parts Hwf Hg Hp Hc Hcol Hfull Hparts.
  assert (R : ready md p params) by exact (conj Hwf (conj Hg (conj Hp (conj Hc Hcol)))).
  assert (Hd : forall t, In t parts -> NoDup (pf_index t) /\ In "value" (pf_columns t) /\ exists fill, derived fill params t).
  { intros t Ht. destruct (Hparts t Ht) as (steps & md' & Hpos & H). exact (part_derived md p params steps md' t R Hpos H). }
  destruct (C56_update_parameter_values parts params Hcol) as (out & E & Ecol & Eidx & Hrows).
  { intros o Ho. destruct (Hd o Ho) as (H1 & H2 & _). auto. }
  exists out. split; [exact E|]. split; [exact Ecol|]. split; [exact Eidx|].
  intros lb cells cells' column Hin Hin' Hc'.
  destruct (same_position (pf_rows params) (pf_rows out) lb cells' Eidx Hin') as (i & c & Hi & Hi').
  assert (c = cells) as -> by exact (row_unique params lb c cells (proj1 Hc) (nth_error_In _ _ Hi) Hin).
  destruct (Hrows i lb cells cells' Hi Hi') as (H1 & H2 & H3).
  destruct (String.eqb_spec column "value") as [->|N]; [|now apply H1].
  destruct (gives_last_dec parts lb) as [[v G]|G]; [intros o Ho; now apply Hd| |now apply H3].
  rewrite (H2 v G). destruct G as (b & o & a & -> & (co & Hco & <- & _) & _).
  destruct (Hd o ltac:(apply in_or_app; right; now left)) as (_ & _ & fill & [_ D]).
  destruct (D lb co Hco) as (c0 & Hc0 & Ec). rewrite (row_unique params lb c0 cells (proj1 Hc) Hc0 Hin) in Ec.
  rewrite (Ec "value" Hcol). pose proof (Hfull lb cells Hin) as F. unfold filled. destruct fill; [|reflexivity]. now destruct (cells "value").
Qed.
Print Assumptions C119_update_with_own_parts.

(** ** Reducing the updated table returns the update *)

Theorem C119_update_is_recovered :
  forall md p params steps md' t estimates,
    wf_dicts md -> good_names md -> process_model md = Ok p -> covers md params -> In "value" (pf_columns params) ->
    positive_periods steps -> do_steps steps md (Some params) = Ok (md', Some t) ->
    In "value" (pf_columns estimates) -> pf_index estimates = pf_index t -> complete estimates ->
    exists full t', update_parameter_values params [estimates] = Ok full /\
      do_steps steps md (Some full) = Ok (md', Some t') /\ same_values estimates t'.
Proof.
  intros md p params steps md' t estimates Hwf Hg Hp Hc Hcol Hpos H Hecol Heidx Hfull.
  assert (R : ready md p params) by exact (conj Hwf (conj Hg (conj Hp (conj Hc Hcol)))).
  destruct (part_derived md p params steps md' t R Hpos H) as (Hnd & _ & _). rewrite <- Heidx in Hnd.
  destruct (C56_update_parameter_values [estimates] params Hcol) as (full & E & Ecol & Eidx & Hrows).
  { intros o [<-|[]]. auto. }
  assert (R2 : ready md p full).
  { split; [exact Hwf|]. split; [exact Hg|]. split; [exact Hp|]. split; [|now rewrite Ecol]. unfold covers. rewrite Eidx. exact Hc. }
  destruct (steps_again steps md p params full md' (Some t) R R2 (positive_all steps Hpos) H) as [t' H'].
  exists full, t'. split; [exact E|]. split; [exact H'|].
  destruct (part_derived md p full steps md' t' R2 Hpos H') as (_ & _ & fill & [_ D]). split.
  - rewrite Heidx. destruct steps as [|s rest] eqn:Es; [cbn in H, H'; injection H as <- <-; injection H' as <-; exact Eidx|]. rewrite <- Es in *.
    destruct (steps_table steps md p params md' (Some t) R (positive_all steps Hpos) ltac:(rewrite Es; discriminate) H) as (t1 & p1 & [= <-] & R1 & I1 & _).
    destruct (steps_table steps md p full md' (Some t') R2 (positive_all steps Hpos) ltac:(rewrite Es; discriminate) H') as (t2 & p2 & [= <-] & R2' & I2 & _).
    rewrite I1, I2. destruct R1 as (_ & _ & A & _), R2' as (_ & _ & B & _). congruence.
  - intros lb ce c' Hin Hin'. destruct (D lb c' Hin') as (cf & Hcf & Ec). rewrite (Ec "value" ltac:(now rewrite Ecol)).
    destruct (same_position (pf_rows params) (pf_rows full) lb cf Eidx Hcf) as (i & c & Hi & Hi').
    destruct (Hrows i lb c cf Hi Hi') as (_ & H2 & _).
    assert (Ev : cf "value" = ce "value").
    { apply H2. exists [], estimates, []. split; [reflexivity|]. split; [|intros o v []]. exists ce. split; [exact Hin|]. split; [reflexivity|]. exact (Hfull lb ce Hin). }
    rewrite Ev. pose proof (Hfull lb ce Hin) as F. unfold filled. destruct fill; [|reflexivity]. now destruct (ce "value").
Qed.
Print Assumptions C119_update_is_recovered.

(** Without the condition that values are complete it is false: reducing the number of
    periods fills missing values, and updating with the result fills them in the table. *)
Theorem C119_missing_values_refuted :
  exists md p params t out lb cells cells',
    wf_dicts md /\ good_names md /\ process_model md = Ok p /\ covers md params /\ In "value" (pf_columns params) /\
    table_of_part md params t /\ update_parameter_values params [t] = Ok out /\
    In (lb, cells) (pf_rows params) /\ In (lb, cells') (pf_rows out) /\ cells "value" = PNan /\ cells' "value" = PNum (5 # 100).
Proof.
  set (params := mk_pframe ["value"] (map (fun lb => (lb, fun _ : string => PNan)) (params_index_of stage_p))).
  assert (Ei : pf_index params = params_index_of stage_p) by (unfold pf_index, params; cbn [pf_rows]; rewrite map_map; apply map_id).
  assert (Hc : covers stage_model params).
  { split; rewrite Ei; [exact (NoDup_params_index _ _ stage_model_wf stage_model_good_names stage_model_accepted)|].
    intros lb Hlb. now apply (In_params_index stage_model stage_p lb stage_model_wf stage_model_accepted). }
  assert (R : ready stage_model stage_p params).
  { split; [exact stage_model_wf|]. split; [exact stage_model_good_names|]. split; [exact stage_model_accepted|]. split; [exact Hc|now left]. }
  assert (P : positive_periods [ReducePeriods 2]) by (intros k [[= <-]|[]]; lia).
  assert (H : exists md' t', do_steps [ReducePeriods 2] stage_model (Some params) = Ok (md', Some t') /\
     exists c', nth_error (pf_rows t') 0 = Some ((CControls, 0, "a", "constant"), c') /\ c' "value" = PNum (5 # 100)).
  { do 2 eexists. split; [vm_compute; reflexivity|]. eexists. split; reflexivity. }
  destruct H as (md' & t' & H & c' & Hr & Hv). destruct (part_derived _ _ _ _ _ _ R P H) as (Hnd & Hcol & _).
  destruct (C56_update_parameter_values [t'] params (or_introl eq_refl)) as (out & E & Ecol & Eidx & Hrows).
  { intros o [<-|[]]. auto. }
  assert (Hp : nth_error (pf_rows params) 0 = Some ((CControls, 0, "a", "constant"), fun _ : string => PNan)) by (vm_compute; reflexivity).
  assert (Ho : nth_error (pf_index out) 0 = Some (CControls, 0, "a", "constant")).
  { rewrite Eidx. unfold pf_index. rewrite nth_error_map, Hp. reflexivity. }
  unfold pf_index in Ho. rewrite nth_error_map in Ho. destruct (nth_error (pf_rows out) 0) as [[lb co]|] eqn:Hout; [|discriminate]. injection Ho as ->.
  exists stage_model, stage_p, params, t', out. eexists. exists (fun _ => PNan), co.
  split; [exact stage_model_wf|]. split; [exact stage_model_good_names|]. split; [exact stage_model_accepted|]. split; [exact Hc|]. split; [now left|].
  split; [exists [ReducePeriods 2], md'; exact (conj P H)|]. split; [exact E|]. split; [exact (nth_error_In _ _ Hp)|]. split; [exact (nth_error_In _ _ Hout)|].
  split; [reflexivity|]. destruct (Hrows 0 _ _ _ Hp Hout) as (_ & G & _). apply G. exists [], t', []. split; [reflexivity|]. split; [|intros o v []].
  exists c'. split; [exact (nth_error_In _ _ Hr)|]. split; [exact Hv|discriminate].
Qed.
Print Assumptions C119_missing_values_refuted.

(** ** An example *)

Example C119_nonvacuous :
  let params := table_of (params_index_of stage_p) stage_v in
  wf_dicts stage_model /\ good_names stage_model /\ process_model stage_model = Ok stage_p /\ covers stage_model params /\
  In "value" (pf_columns params) /\ complete params /\ positive_periods [RemoveFactors (One "cog"); ReducePeriods 2] /\
  (exists md' t estimates, do_steps [RemoveFactors (One "cog"); ReducePeriods 2] stage_model (Some params) = Ok (md', Some t) /\
     table_of_part stage_model params t /\ pf_index estimates = pf_index t /\ In "value" (pf_columns estimates) /\ complete estimates /\
     pf_index t <> pf_index params /\ ~ same_values t estimates).
Proof.
  cbv zeta. split; [exact stage_model_wf|]. split; [exact stage_model_good_names|]. split; [exact stage_model_accepted|].
  split; [exact (table_covers _ _ _ stage_model_wf stage_model_good_names stage_model_accepted)|]. split; [now left|].
  split; [intros lb cells H; rewrite (table_values _ _ lb cells H); discriminate|].
  assert (P : positive_periods [RemoveFactors (One "cog"); ReducePeriods 2]) by (intros k [Hk|[[= <-]|[]]]; [discriminate|lia]).
  split; [exact P|].
  assert (H : exists md' t, do_steps [RemoveFactors (One "cog"); ReducePeriods 2] stage_model (Some (table_of (params_index_of stage_p) stage_v)) = Ok (md', Some t) /\
    length (pf_index t) < length (params_index_of stage_p) /\ exists lb c, nth_error (pf_rows t) 0 = Some (lb, c) /\ c "value" = PNum (stage_v lb)).
  { do 2 eexists. split; [vm_compute; reflexivity|]. split; [apply Nat.ltb_lt; vm_compute; reflexivity|]. do 2 eexists. split; reflexivity. }
  destruct H as (md' & t & H & L & lb & c & Hr & Hv). exists md', t, (table_of (pf_index t) (fun l => stage_v l + 1)%Q).
  split; [exact H|]. split; [exists [RemoveFactors (One "cog"); ReducePeriods 2], md'; exact (conj P H)|]. split; [apply table_index|]. split; [now left|].
  split; [intros l cells Hin; rewrite (table_values _ _ l cells Hin); discriminate|].
  split; [intros E; rewrite E, table_index in L; lia|]. intros [_ F].
  specialize (F lb c (fun _ => PNum (stage_v lb + 1)%Q) (nth_error_In _ _ Hr)). rewrite Hv in F.
  assert (Hin : In lb (pf_index t)) by (apply nth_error_In in Hr; now apply (in_map fst) in Hr).
  assert (Ht : In (lb, fun _ : string => PNum (stage_v lb + 1)) (pf_rows (table_of (pf_index t) (fun l => stage_v l + 1)%Q))).
  { unfold table_of. cbn [pf_rows]. exact (in_map (fun l => (l, fun _ : string => PNum (stage_v l + 1))) (pf_index t) lb Hin). }
  specialize (F Ht). cbv beta in F. injection F as F. clear -F. apply (f_equal (fun q => Qeq_bool q (stage_v lb))) in F.
  rewrite (proj2 (Qeq_bool_iff _ _) (Qeq_refl (stage_v lb))) in F. apply Qeq_bool_iff in F.
  assert (Z : (1 == 0)%Q).
  { setoid_replace 1%Q with (stage_v lb + 1 - stage_v lb)%Q by ring. rewrite F. ring. }
  discriminate Z.
Qed.
