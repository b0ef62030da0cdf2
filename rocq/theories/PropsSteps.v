(** Sequences of reductions of a model (C116). *)
Require Import String Arith ZArith QArith Bool List Lia Permutation.
From Verif Require Import PyBase ListFacts StringFacts ModelSpec ProcessModel CheckModel SpecModel ProcessModelFacts AcceptFacts
  ParamsIndex SpecIndex IndexFacts ParseParams ParamsVec ExampleModels PropsSpec PropsParse
  Utilities SpecUtilities UtilitiesFacts PropsUtilities SpecSteps StepFacts.
Import ListNotations.
Open Scope string_scope.
Open Scope list_scope.
Open Scope nat_scope.

(** ** Tables of parameters along a sequence of steps *)

Definition filled (c : string) (x : pcell) : pcell := match x with PNan => default_cell c | x => x end.

Lemma filled_twice c x : filled c (filled c x) = filled c x.
Proof. unfold filled. destruct x; try reflexivity. now destruct (default_cell c). Qed.

(** The rows of [t'] are rows of [t], with missing cells filled or not. *)
Definition derived (fill : bool) (t t' : pframe) : Prop :=
  pf_columns t' = pf_columns t /\
  forall lb cells', row_of t' lb cells' -> exists cells, row_of t lb cells /\
    forall c, In c (pf_columns t) -> cells' c = if fill then filled c (cells c) else cells c.

Definition fills (s : reduction_step) : bool := match s with ReducePeriods _ => true | _ => false end.

Lemma derived_refl t : derived false t t.
Proof. split; [reflexivity|]. intros lb cells H. exists cells. auto. Qed.

Lemma derived_trans b b' t t' t'' : derived b t t' -> derived b' t' t'' -> derived (b || b') t t''.
Proof.
  intros [C1 H1] [C2 H2]. split; [now rewrite C2|]. intros lb cells'' Hr. destruct (H2 lb cells'' Hr) as (cells' & Hr' & E').
  destruct (H1 lb cells' Hr') as (cells & Hr0 & E). exists cells. split; [exact Hr0|]. intros c Hc.
  rewrite E', E by (rewrite ?C1; exact Hc). destruct b, b'; cbn [orb]; rewrite ?filled_twice; reflexivity.
Qed.

Lemma row_unique t lb cells cells' : NoDup (pf_index t) -> row_of t lb cells -> row_of t lb cells' -> cells = cells'.
Proof.
  unfold pf_index, row_of. intros Hnd H H'. apply (row_value_In (pf_rows t) lb cells Hnd) in H. apply (row_value_In (pf_rows t) lb cells' Hnd) in H'. congruence.
Qed.

Lemma derived_same fill t t1 t2 : NoDup (pf_index t) -> derived fill t t1 -> derived fill t t2 -> pf_index t2 = pf_index t1 -> same_table t1 t2.
Proof.
  intros Hnd [C1 H1] [C2 H2] E. split; [congruence|]. split; [exact E|]. intros lb cells1 cells2 c R1 R2 Hc.
  destruct (H1 lb cells1 R1) as (x & Rx & Ex), (H2 lb cells2 R2) as (y & Ry & Ey). rewrite C1 in Hc.
  pose proof (row_unique t lb x y Hnd Rx Ry) as ->. now rewrite Ex, Ey.
Qed.

Lemma reduction_derived md params md' t : reduction md params md' t -> derived false params t.
Proof. intros (_ & (C & _ & H) & _). split; [exact C|]. intros lb cells Hr. exists cells. auto. Qed.

Definition ready (md : model_dict) (p : processed) (params : pframe) : Prop :=
  wf_dicts md /\ good_names md /\ process_model md = Ok p /\ covers md params /\ In "value" (pf_columns params).

Lemma step_table s md p params md' out : ready md p params -> positive_step s ->
  do_step s md (Some params) = Ok (md', out) ->
  exists t p', out = Some t /\ ready md' p' t /\ pf_index t = params_index_of p' /\ derived (fills s) params t.
Proof.
  intros (Hwf & Hg & Hp & Hc & Hv) Hs H. pose proof (step_result s md _ md' out H) as E.
  assert (G : exists t p', out = Some t /\ process_model md' = Ok p' /\ pf_index t = params_index_of p' /\ derived (fills s) params t).
  { destruct s as [a|a|a|k|]; cbn [do_step fills] in *.
    - destruct (C52_remove_factors a md p params Hwf Hp Hc) as [_ G]. destruct (G md' out H) as (_ & t & -> & R).
      pose proof (reduction_derived _ _ _ _ R) as D. destruct R as (_ & _ & p' & Hp' & Hi). exists t, p'. auto.
    - destruct (C52_remove_measurements a md p params Hwf Hp Hc) as (m & t & E1 & _ & R). rewrite E1 in H. injection H as <- <-.
      pose proof (reduction_derived _ _ _ _ R) as D. destruct R as (_ & _ & p' & Hp' & Hi). exists t, p'. auto.
    - destruct (C52_remove_controls a md p params Hwf Hp Hc) as [_ G]. destruct (G md' out H) as (_ & t & -> & R).
      pose proof (reduction_derived _ _ _ _ R) as D. destruct R as (_ & _ & p' & Hp' & Hi). exists t, p'. auto.
    - destruct (C53_reduced_periods_partial md p params k Hwf Hp Hc Hv Hs) as (m & p' & t & E1 & _ & Hp' & Hi & [Hcol He] & Hin & _).
      rewrite E1 in H. injection H as <- <-. exists t, p'. split; [reflexivity|]. split; [exact Hp'|]. split; [exact Hi|].
      split; [exact Hcol|]. intros lb cells' Hr.
      assert (Hlb : In lb (pf_index params)).
      { assert (Hlb' : In lb (pf_index t)) by (apply in_map_iff; now exists (lb, cells')). rewrite Hi in Hlb'.
        apply Hin. apply (In_params_index m p' lb); [|exact Hp'|exact Hlb']. rewrite E. now apply wf_after. }
      apply in_map_iff in Hlb as ([lb0 cells] & E0 & Hr0). cbn [fst] in E0. subst lb0. exists cells. split; [exact Hr0|]. intros c Hcc.
      destruct (He lb cells' c Hr Hcc) as [G _]. destruct (G cells Hr0) as [G1 G2]. unfold filled.
      destruct (cells c); try (now apply G1). now apply G2.
    - destruct (C52_switch_translog_to_linear md p params Hwf Hp Hc) as (m & t & E1 & _ & R). rewrite E1 in H. injection H as <- <-.
      pose proof (reduction_derived _ _ _ _ R) as D. destruct R as (_ & _ & p' & Hp' & Hi). exists t, p'. auto. }
  destruct G as (t & p' & -> & Hp' & Hi & D). exists t, p'. split; [reflexivity|]. split; [|auto].
  assert (Hwf' : wf_dicts md') by (rewrite E; now apply wf_after). assert (Hg' : good_names md') by (rewrite E; now apply names_after).
  split; [exact Hwf'|]. split; [exact Hg'|]. split; [exact Hp'|]. split.
  - split; [rewrite Hi; now apply (NoDup_params_index md')|]. intros lb Hlb. rewrite Hi. now apply (In_params_index md' p').
  - destruct D as [-> _]. exact Hv.
Qed.

Lemma steps_table steps : forall md p params md' out, ready md p params -> Forall positive_step steps -> steps <> [] ->
  do_steps steps md (Some params) = Ok (md', out) ->
  exists t p', out = Some t /\ ready md' p' t /\ pf_index t = params_index_of p' /\ derived (existsb fills steps) params t.
Proof.
  induction steps as [|s steps IH]; intros md p params md' out Hr Hp Hne H; [now destruct Hne|]. cbn [do_steps] in H.
  apply rbind_ok in H as ([m1 o1] & H1 & H). cbn [fst snd] in H. inversion Hp as [|? ? Ps Pr]; subst.
  destruct (step_table s md p params m1 o1 Hr Ps H1) as (t1 & p1 & -> & R1 & I1 & D1).
  destruct steps as [|s' steps].
  - cbn [do_steps] in H. injection H as <- <-. exists t1, p1. split; [reflexivity|]. split; [exact R1|]. split; [exact I1|].
    cbn [existsb]. now rewrite orb_false_r.
  - destruct (IH m1 p1 t1 md' out R1 Pr ltac:(discriminate) H) as (t & p' & -> & R & I & D). exists t, p'.
    split; [reflexivity|]. split; [exact R|]. split; [exact I|]. exact (derived_trans _ _ _ _ _ D1 D).
Qed.

Lemma existsb_perm {A} (f : A -> bool) l l' : Permutation l l' -> existsb f l = existsb f l'.
Proof.
  induction 1 as [|x l l' _ IH|x y l|l1 l2 l3 _ IH1 _ IH2]; cbn; [reflexivity|now rewrite IH|now rewrite !orb_assoc, (orb_comm (f y))|congruence].
Qed.

(** ** The order of the steps does not matter *)

(** Two sequences of the same steps that both succeed return the same model and the same
    table of parameters. *)
Theorem C116_any_order :
  forall md p params steps steps' md1 t1 md2 t2,
    wf_dicts md -> good_names md -> process_model md = Ok p -> covers md params -> In "value" (pf_columns params) ->
    positive_periods steps -> Permutation steps steps' ->
    do_steps steps md (Some params) = Ok (md1, Some t1) -> do_steps steps' md (Some params) = Ok (md2, Some t2) ->
    md2 = md1 /\ same_table t1 t2.
Proof.
  intros md p params steps steps' md1 t1 md2 t2 Hwf Hg Hp Hc Hv Hpos Hperm H1 H2.
  assert (Hr : ready md p params) by exact (conj Hwf (conj Hg (conj Hp (conj Hc Hv)))).
  destruct steps as [|s0 rest] eqn:Es.
  { apply Permutation_nil in Hperm. subst steps'. cbn in H1, H2. injection H1 as <- <-. injection H2 as <- <-. split; [reflexivity|].
    apply (derived_same false params); [apply Hc|apply derived_refl|apply derived_refl|reflexivity]. }
  rewrite <- Es in *. assert (Hne : steps <> []) by (rewrite Es; discriminate). clear Es s0 rest.
  assert (Hne' : steps' <> []) by (intros ->; apply Hne; now apply Permutation_nil, Permutation_sym).
  pose proof (positive_all steps Hpos) as P1.
  assert (P2 : Forall positive_step steps').
  { rewrite Forall_forall in *. intros x Hx. apply P1. now apply (Permutation_in _ (Permutation_sym Hperm)). }
  destruct (steps_table steps md p params md1 (Some t1) Hr P1 Hne H1) as (t & p1 & [= <-] & R1 & I1 & D1).
  destruct (steps_table steps' md p params md2 (Some t2) Hr P2 Hne' H2) as (t & p2 & [= <-] & R2 & I2 & D2).
  pose proof (steps_result steps md _ _ _ H1) as E1. pose proof (steps_result steps' md _ _ _ H2) as E2.
  assert (E : md2 = md1).
  { rewrite E1, E2. symmetry. apply (order_of_steps steps steps' Hperm md P1). apply (accepted_alive steps md p1). rewrite <- E1. apply R1. }
  split; [exact E|]. subst md2. apply (derived_same (existsb fills steps) params); [apply Hc|exact D1| |].
  - now rewrite (existsb_perm fills steps steps' Hperm).
  - rewrite I1, I2. destruct R1 as (_ & _ & Hp1 & _), R2 as (_ & _ & Hp2 & _). congruence.
Qed.
Print Assumptions C116_any_order.

(** Also without a table of parameters, if the resulting model is accepted. *)
Theorem C116_any_order_of_models :
  forall md steps steps' md1 md2 p1,
    positive_periods steps -> Permutation steps steps' ->
    do_steps steps md None = Ok (md1, None) -> do_steps steps' md None = Ok (md2, None) ->
    process_model md1 = Ok p1 -> md2 = md1.
Proof.
  intros md steps steps' md1 md2 p1 Hpos Hperm H1 H2 Hp1.
  pose proof (steps_result steps md _ _ _ H1) as E1. pose proof (steps_result steps' md _ _ _ H2) as E2. rewrite E1, E2.
  symmetry. apply (order_of_steps steps steps' Hperm md (positive_all steps Hpos)). apply (accepted_alive steps md p1). now rewrite <- E1.
Qed.
Print Assumptions C116_any_order_of_models.

(** ** Which sequences succeed *)

Definition no_outcomes (md : model_dict) : Prop := exists an, md_anchoring md = Some an /\ as_outcomes an = None.

Lemma no_outcomes_after s md : no_outcomes (after_step s md) <-> no_outcomes md.
Proof.
  unfold no_outcomes. destruct s as [a|a|a|k|]; try reflexivity. unfold after_step, do_change. cbn [md_anchoring]. parts. unfold less_anchoring.
  destruct (md_anchoring md) as [an|]; [|reflexivity]. destruct (as_outcomes an) as [outs|] eqn:E.
  - split; intros (x & H & Hx); exfalso.
    + destruct (remove_from_dict outs a) as [|y l]; [discriminate|]. injection H as <-. discriminate Hx.
    + injection H as <-. congruence.
  - split; intros (x & H & Hx); now exists x.
Qed.

Lemma factors_need_outcomes steps : forall md params out, do_steps steps md params = Ok out ->
  (exists a, In (RemoveFactors a) steps) -> ~ no_outcomes md.
Proof.
  induction steps as [|s steps IH]; intros md params out H [a Ha] Hno; [destruct Ha|]. cbn [do_steps] in H.
  apply rbind_ok in H as ([m1 o1] & H1 & H). destruct Ha as [->|Ha].
  - cbn [do_step] in H1. apply remove_factors_unfold in H1 as (anch & d & R & _). destruct Hno as (an & E & En).
    rewrite E in R. cbn in R. destruct R as (outs & left & E' & _). congruence.
  - apply step_result in H1 as E1. cbn [fst snd] in H. subst m1. apply (IH _ _ _ H); [now exists a|]. now apply no_outcomes_after.
Qed.

Lemma step_succeeds s md p params : ready md p params -> positive_step s -> (forall a, s <> RemoveControls a) ->
  alive [s] md -> ((exists a, s = RemoveFactors a) -> ~ no_outcomes md) ->
  exists out, do_step s md (Some params) = Ok out.
Proof.
  intros (Hwf & Hg & Hp & Hc & Hv) Hs Hnc (f & fs & Hin & Hm & Hn) Ha. destruct s as [a|a|a|k|]; cbn [do_step].
  - apply (C52_remove_factors a md p params Hwf Hp Hc). split.
    + exists f, fs. split; [exact Hin|]. split; [apply Hn; now left|exact Hm].
    + intros an E Eo. apply Ha; [now exists a|]. now exists an.
  - destruct (C52_remove_measurements a md p params Hwf Hp Hc) as (m & t & E1 & _). eauto.
  - now destruct (Hnc a).
  - destruct (C53_reduced_periods_partial md p params k Hwf Hp Hc Hv Hs) as (m & p' & t & E1 & _). eauto.
  - destruct (C52_switch_translog_to_linear md p params Hwf Hp Hc) as (m & t & E1 & _). eauto.
Qed.

Lemma steps_succeed steps : forall md p params, ready md p params -> Forall positive_step steps -> keeps_controls steps ->
  alive steps md -> ((exists a, In (RemoveFactors a) steps) -> ~ no_outcomes md) ->
  exists out, do_steps steps md (Some params) = Ok out.
Proof.
  induction steps as [|s steps IH]; intros md p params Hr Hp Hk Hal Ha; [eexists; reflexivity|]. inversion Hp as [|? ? Ps Pr]; subst.
  destruct (step_succeeds s md p params Hr Ps) as [[m1 o1] H1].
  { intros a ->. apply (Hk a). now left. }
  { destruct Hal as (f & fs & Hin & Hm & Hn). exists f, fs. split; [exact Hin|]. split; [exact Hm|]. intros a [->|[]]. apply Hn. now left. }
  { intros [a ->]. apply Ha. exists a. now left. }
  destruct (step_table s md p params m1 o1 Hr Ps H1) as (t1 & p1 & -> & R1 & _). pose proof (step_result s md _ _ _ H1) as E1.
  cbn [do_steps]. rewrite H1. cbn [rbind fst snd]. apply (IH m1 p1 t1 R1 Pr).
  - intros a F. apply (Hk a). now right.
  - rewrite E1. now apply alive_step.
  - intros [a F]. rewrite E1. rewrite no_outcomes_after. apply Ha. exists a. now right.
Qed.

(** A sequence that does not remove controls succeeds exactly if some factor with
    measurements is left and, in case factors are removed, the anchoring section has
    outcomes: whether it succeeds does not depend on the order either. *)
Theorem C116_success :
  forall md p params steps,
    wf_dicts md -> good_names md -> process_model md = Ok p -> covers md params -> In "value" (pf_columns params) ->
    positive_periods steps -> keeps_controls steps ->
    (exists out, do_steps steps md (Some params) = Ok out) <->
    (exists f fs, In (f, fs) (md_factors md) /\ fs_measurements fs <> [] /\ forall a, In (RemoveFactors a) steps -> ~ named a f) /\
    ((exists a, In (RemoveFactors a) steps) -> forall an, md_anchoring md = Some an -> as_outcomes an <> None).
Proof.
  intros md p params steps Hwf Hg Hp Hc Hv Hpos Hk.
  assert (Hr : ready md p params) by exact (conj Hwf (conj Hg (conj Hp (conj Hc Hv)))). pose proof (positive_all steps Hpos) as P. split.
  - intros [[md1 o1] H]. split.
    + change (alive steps md). destruct steps as [|s rest] eqn:Es; [exact (accepted_alive [] md p Hp)|]. rewrite <- Es in *.
      destruct (steps_table steps md p params md1 o1 Hr P ltac:(rewrite Es; discriminate) H) as (t & p' & _ & R & _).
      apply (accepted_alive steps md p'). rewrite <- (steps_result steps md _ _ _ H). apply R.
    + intros Ha an E Eo. apply (factors_need_outcomes steps md _ _ H Ha). now exists an.
  - intros [Hal Ha]. apply (steps_succeed steps md p params Hr P Hk Hal). intros Hf (an & E & Eo). exact (Ha Hf an E Eo).
Qed.
Print Assumptions C116_success.

Theorem C116_success_in_any_order :
  forall md p params steps steps',
    wf_dicts md -> good_names md -> process_model md = Ok p -> covers md params -> In "value" (pf_columns params) ->
    positive_periods steps -> keeps_controls steps -> Permutation steps steps' ->
    (exists out, do_steps steps md (Some params) = Ok out) -> exists out, do_steps steps' md (Some params) = Ok out.
Proof.
  intros md p params steps steps' Hwf Hg Hp Hc Hv Hpos Hk Hperm H.
  assert (Hin : forall s, In s steps' -> In s steps) by (intros s; apply (Permutation_in _ (Permutation_sym Hperm))).
  apply (C116_success md p params steps Hwf Hg Hp Hc Hv Hpos Hk) in H as [(f & fs & H1 & H2 & H3) H4].
  apply (C116_success md p params steps' Hwf Hg Hp Hc Hv).
  - intros k Hks. apply Hpos. now apply Hin.
  - intros a Ha. apply (Hk a). now apply Hin.
  - split; [exists f, fs; split; [exact H1|]; split; [exact H2|]; intros a Ha; apply H3; now apply Hin|].
    intros [a Ha]. apply H4. exists a. now apply Hin.
Qed.
Print Assumptions C116_success_in_any_order.

(** ** Step by step or at once *)

Lemma merged_model s s' once md : merged s s' once -> positive_step s -> positive_step s' -> alive [s; s'] md ->
  after_step s' (after_step s md) = after_step once md.
Proof.
  intros M Hs Hs' (f & fs & Hin & Hm & Hn). apply nonempty_length in Hm.
  destruct M as [a b|a b|a b|k l|].
  - pose proof (periods_after b (RemoveFactors a) md I) as E. cbv iota in E. rewrite remove_dict_both in E.
    assert (L : 1 <= most_periods (remove_from_dict (md_factors md) (both a b))).
    { transitivity (length (fs_measurements fs)); [exact Hm|]. apply (most_In _ f). rewrite <- remove_dict_both.
      apply remove_from_dict_In. split; [apply remove_from_dict_In; split; [exact Hin|]|]; apply Hn; cbn; tauto. }
    pose proof (most_removed (remove_from_dict (md_factors md) a) b) as La. rewrite remove_dict_both in La.
    unfold after_step at 1. unfold do_change at 1. parts. rewrite E. unfold after_step, do_change. cbn [md_factors md_observed md_controls md_stagemap md_anchoring md_options]. parts.
    apply model_ext; [|reflexivity| |apply less_anchoring_both].
    + rewrite new_factors_twice. apply new_factors_ext; [|reflexivity]. intros gs. rewrite short_short. f_equal. lia.
    + rewrite short_stages_min by lia. f_equal. lia.
  - unfold after_step, do_change. cbn [md_factors md_observed md_controls md_stagemap md_anchoring md_options]. parts.
    apply model_ext; try reflexivity. rewrite new_factors_twice. apply new_factors_ext; [|reflexivity]. intros gs. apply reduced_both.
  - unfold after_step, do_change. cbn [md_factors md_observed md_controls md_stagemap md_anchoring md_options]. parts.
    apply model_ext; try reflexivity; [|apply less_controls_both]. rewrite new_factors_twice. now apply new_factors_ext.
  - unfold after_step, do_change. cbn [md_factors md_observed md_controls md_stagemap md_anchoring md_options]. parts. cbn in Hs, Hs'.
    apply model_ext; try reflexivity.
    + rewrite new_factors_twice. apply new_factors_ext; [|reflexivity]. intros gs. rewrite short_short. f_equal. lia.
    + rewrite short_stages_min by lia. f_equal. lia.
  - unfold after_step, do_change. cbn [md_factors md_observed md_controls md_stagemap md_anchoring md_options]. parts.
    apply model_ext; try reflexivity. rewrite new_factors_twice. apply new_factors_ext; [|reflexivity]. intros gs.
    unfold switch_transition. cbn [fs_measurements fs_transition fs_norm]. f_equal. destruct (fs_transition gs) as [t| |]; try reflexivity.
    destruct (String.eqb t "translog") eqn:E; [reflexivity|]. now rewrite E.
Qed.

(** Two reductions of the same kind, one after the other, return the same model and the same
    table as one call that asks for both. *)
Theorem C116_at_once :
  forall md p params s s' once md1 t1,
    wf_dicts md -> good_names md -> process_model md = Ok p -> covers md params -> In "value" (pf_columns params) ->
    positive_periods [s; s'] -> merged s s' once ->
    do_steps [s; s'] md (Some params) = Ok (md1, Some t1) ->
    exists t, do_step once md (Some params) = Ok (md1, Some t) /\ same_table t1 t.
Proof.
  intros md p params s s' once md1 t1 Hwf Hg Hp Hc Hv Hpos M H.
  assert (Hr : ready md p params) by exact (conj Hwf (conj Hg (conj Hp (conj Hc Hv)))).
  pose proof (positive_all _ Hpos) as P. inversion P as [|? ? Ps P']; subst. inversion P' as [|? ? Ps' _]; subst.
  destruct (steps_table [s; s'] md p params md1 (Some t1) Hr P ltac:(discriminate) H) as (t & p1 & [= <-] & R1 & I1 & D1).
  pose proof (steps_result [s; s'] md _ _ _ H) as E1. cbn [after_steps fold_left] in E1.
  assert (Hal : alive [s; s'] md).
  { apply (accepted_alive [s; s'] md p1). cbn [after_steps fold_left]. rewrite <- E1. apply R1. }
  rewrite (merged_model s s' once md M Ps Ps' Hal) in E1.
  assert (Po : positive_step once) by (destruct M; cbn in *; try exact I; lia).
  assert (Ho : exists out, do_step once md (Some params) = Ok out).
  { destruct M as [a b|a b|a b|k l|].
    - apply (step_succeeds _ md p params Hr Po); [discriminate| |].
      + destruct Hal as (f & fs & Hin & Hm & Hn). exists f, fs. split; [exact Hin|]. split; [exact Hm|].
        intros c [[= <-]|[]] F. cbn [named both] in F. apply in_app_iff in F as [F|F].
        * apply (Hn a); [now left|]. now apply named_smem, smem_In.
        * apply (Hn b); [right; now left|]. now apply named_smem, smem_In.
      + intros _. apply (factors_need_outcomes _ md _ _ H). exists a. now left.
    - apply (step_succeeds _ md p params Hr Po); [discriminate| |intros [x F]; discriminate F].
      destruct Hal as (f & fs & Hin & Hm & Hn). exists f, fs. split; [exact Hin|]. split; [exact Hm|]. intros c [F|[]]; discriminate F.
    - apply (C52_remove_controls (both a b) md p params Hwf Hp Hc). cbn [do_steps do_step] in H. intros F.
      unfold remove_controls at 1 in H. rewrite F in H. discriminate H.
    - apply (step_succeeds _ md p params Hr Po); [discriminate| |intros [x F]; discriminate F].
      destruct Hal as (f & fs & Hin & Hm & Hn). exists f, fs. split; [exact Hin|]. split; [exact Hm|]. intros c [F|[]]; discriminate F.
    - apply (step_succeeds _ md p params Hr Po); [discriminate| |intros [x F]; discriminate F].
      destruct Hal as (f & fs & Hin & Hm & Hn). exists f, fs. split; [exact Hin|]. split; [exact Hm|]. intros c [F|[]]; discriminate F. }
  destruct Ho as [[m o] Ho]. pose proof (step_result once md _ _ _ Ho) as Em. rewrite <- E1 in Em. subst m.
  destruct (step_table once md p params md1 o Hr Po Ho) as (t & p2 & -> & R2 & I2 & D2).
  exists t. split; [exact Ho|]. apply (derived_same (fills once) params); [apply Hc| |exact D2|].
  - replace (fills once) with (existsb fills [s; s']); [exact D1|]. now destruct M.
  - rewrite I1, I2. destruct R1 as (_ & _ & Hp1 & _), R2 as (_ & _ & Hp2 & _). congruence.
Qed.
Print Assumptions C116_at_once.

(** ** Controls *)

(** Whether a sequence succeeds depends on the order if controls are removed: the section is
    dropped together with the last control, and then any further removal raises KeyError,
    although the same removals succeed at once or in another order. *)
Theorem C116_controls_refuted :
  exists md p a b out,
    wf_dicts md /\ good_names md /\ process_model md = Ok p /\
    do_steps [RemoveControls a; RemoveControls b] md None = Ok out /\
    do_step (RemoveControls (both b a)) md None = Ok out /\
    do_steps [RemoveControls b; RemoveControls a] md None = Err KeyError.
Proof.
  exists small_model, small_p, (One "x2"), (One "x1"). eexists.
  split; [exact small_model_wf|]. split; [exact small_model_good_names|]. split; [exact small_model_accepted|].
  split; [vm_compute; reflexivity|]. split; vm_compute; reflexivity.
Qed.
Print Assumptions C116_controls_refuted.

(** ** An example *)

Definition example_steps : list reduction_step :=
  [RemoveMeasurements (One "c"); RemoveFactors (One "cog"); ReducePeriods 2; TranslogToLinear; RemoveControls (Many ["x1"])].

Example C116_nonvacuous :
  let params := full_frame (params_index_of small_p) in
  wf_dicts small_model /\ good_names small_model /\ process_model small_model = Ok small_p /\ covers small_model params /\
  In "value" (pf_columns params) /\ positive_periods example_steps /\ keeps_controls (firstn 4 example_steps) /\
  (exists md1 t1 md2 t2, do_steps example_steps small_model (Some params) = Ok (md1, Some t1) /\
     do_steps (rev example_steps) small_model (Some params) = Ok (md2, Some t2) /\ latent_of md1 = ["soc"] /\
     (length (pf_index t1) < length (pf_index params))%nat) /\
  merged (RemoveMeasurements (One "a")) (RemoveMeasurements (One "c")) (RemoveMeasurements (Many ["a"; "c"])).
Proof.
  cbv zeta. split; [exact small_model_wf|]. split; [exact small_model_good_names|]. split; [exact small_model_accepted|].
  split; [exact (full_frame_covers small_model small_p small_model_wf small_model_good_names small_model_accepted)|].
  split; [now left|]. split; [intros k Hk; cbn in Hk; repeat destruct Hk as [Hk|Hk]; try discriminate Hk; [injection Hk as <-; lia|destruct Hk]|].
  split; [intros a Ha; cbn in Ha; repeat destruct Ha as [Ha|Ha]; try discriminate Ha; destruct Ha|].
  split; [|exact (merged_measurements (One "a") (One "c"))].
  do 4 eexists. split; [vm_compute; reflexivity|]. split; [vm_compute; reflexivity|]. split; [reflexivity|]. apply Nat.ltb_lt. vm_compute. reflexivity.
Qed.
