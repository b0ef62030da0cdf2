(** Identifiers are only labels, and pooled data add up (C115). *)
Require Import Reals Qreals Lra String Arith ZArith Bool List Lia Permutation Sorted.
From Verif Require Import PyBase ListFacts StringFacts ModelSpec ProcessModel CheckModel SpecModel ProcessModelFacts
  SpecParse SpecIndex IndexFacts SpecFacts ParamsIndex ParseParams ParseFacts PropsParse ProcessData SpecData DataArrays DataFacts PropsData
  RSum Kalman SpecKalman PropsKalman Likelihood SpecLikelihood ScheduleFacts LikelihoodRun LikelihoodLocal
  LikelihoodFacts ExampleModels PropsSpec PropsLikelihood QRWitness
  TransitionFunctions TransitionFacts SpecTransition PropsTransition SpecRelabel.
Import ListNotations.
Open Scope R_scope.

(** ** Sums over individuals *)

Lemma sum_by_id (ids : list Z) (c : nat -> R) : NoDup ids ->
  exists g, (forall i id, nth_error ids i = Some id -> c i = g id) /\ rsum (length ids) c = sum_list (map g ids).
Proof.
  revert c. induction ids as [|a l IH]; intros c Hnd.
  - exists (fun _ => 0). split; [intros [|i] id H; discriminate H|reflexivity].
  - inversion Hnd as [|? ? Ha Hl]; subst. destruct (IH (fun i => c (S i)) Hl) as (g & Hg & Es).
    exists (fun z => if Z.eqb z a then c O else g z). split.
    + intros [|i] id H; cbn in H; [injection H as <-; now rewrite Z.eqb_refl|].
      destruct (Z.eqb_spec id a) as [->|_]; [|exact (Hg i id H)]. destruct Ha. now apply nth_error_In in H.
    + cbn [length map sum_list fold_right]. rewrite rsum_S_l, Z.eqb_refl. f_equal. rewrite Es. unfold sum_list. f_equal.
      apply map_ext_in. intros z Hz. destruct (Z.eqb_spec z a) as [->|_]; [contradiction|reflexivity].
Qed.

Lemma sum_list_permutation l l' : Permutation l l' -> sum_list l = sum_list l'.
Proof. unfold sum_list. induction 1; simpl; lra. Qed.

Lemma sum_list_app l l' : sum_list (l ++ l') = sum_list l + sum_list l'.
Proof. unfold sum_list. induction l as [|x l IH]; simpl; lra. Qed.

Lemma ascending_NoDup l P : ascending l P -> NoDup l.
Proof.
  intros [H _]. induction H as [|a l _ IH F]; constructor; [|exact IH]. intros Hin.
  rewrite Forall_forall in F. specialize (F a Hin). lia.
Qed.

Lemma some_member {A} (l : list A) : l <> [] -> exists x, In x l.
Proof. destruct l as [|x l]; [intros H; now destruct H|]. intros _. exists x. now left. Qed.

(** ** Data sets made of individuals of accepted data sets *)

Section Assembled.
  Variables (md : model_dict) (p : processed) (n : nat).

  Lemma nobody_fails df ids lv ar : data_setting md p n df ids lv ->
    process_data 1 req df (p_labels p) (p_update p) (p_anch p) true = Ok ar -> (1 <= n)%nat -> ids <> [].
  Proof.
    intros Hd Har Hn ->. destruct (C28_check_exact 1 req md p n df [] lv true req_spec Hd) as [[H _] _].
    destruct H as (_ & _ & Np & _); [now exists ar|]. apply Np.
    exists O, "constant"%string, VariableMissing. split; [lia|]. constructor; [now left|]. right. intros id [].
  Qed.

  Lemma assembled_processing df' ids' lv' : data_setting md p n df' ids' lv' -> unique_index df' -> ids' <> [] ->
    (forall id', In id' ids' -> exists df ids lv ar id, data_setting md p n df ids lv /\
       process_data 1 req df (p_labels p) (p_update p) (p_anch p) true = Ok ar /\ fr_columns df' = fr_columns df /\
       In id ids /\ same_data n df lv id df' lv' id' /\
       forall j, In j ids -> exists j', In j' ids' /\ same_data n df lv j df' lv' j') ->
    exists ar', process_data 1 req df' (p_labels p) (p_update p) (p_anch p) true = Ok ar'.
  Proof.
    intros Hd' Hu Hne Hsrc. destruct (C28_check_exact 1 req md p n df' ids' lv' true req_spec Hd') as [[_ Ok2] _].
    assert (Hsrc' : forall id', In id' ids' -> exists df ids lv id,
      (forall f o, anchored md f o -> In o (fr_columns df)) /\
      ~ (exists t x pr, (t < n)%nat /\ has_problem 1 md n df ids lv true t x pr) /\
      (forall t v, In (t, v) (equations md n) -> available md df v) /\ fr_columns df' = fr_columns df /\
       In id ids /\ same_data n df lv id df' lv' id' /\
       forall j, In j ids -> exists j', In j' ids' /\ same_data n df lv j df' lv' j').
    { intros id' Hid'. destruct (Hsrc id' Hid') as (df & ids & lv & ar & id & Hd & Har & Hcol & Hid & Hs & Hall).
      destruct (C28_check_exact 1 req md p n df ids lv true req_spec Hd) as [[Ok1 _] _].
      destruct Ok1 as (_ & Out & Np & Me); [now exists ar|]. exists df, ids, lv, id.
      exact (conj Out (conj Np (conj Me (conj Hcol (conj Hid (conj Hs Hall)))))). }
    clear Hsrc. destruct ids' as [|i0 rest] eqn:Ei; [now destruct Hne|]. rewrite <- Ei in *. clear Hne.
    assert (Hi0 : In i0 ids') by (rewrite Ei; now left).
    assert (Hav : forall (df : frame R) x, fr_columns df' = fr_columns df -> available md df' x <-> available md df x)
      by (intros df x E; unfold available; now rewrite E).
    destruct (Hsrc' i0 Hi0) as (df & ids & lv & id & Out & Np & Me & Hcol & Hid & Hs & Hall).
    apply Ok2. split; [exact Hu|]. split; [intros f o Ha; rewrite Hcol; now apply (Out f o)|]. split.
    2:{ intros t v Hv. apply (Hav df v Hcol). exact (Me t v Hv). }
    intros (t & x & pr & Ht & Hpr).
    destruct Hpr as [c Hc Hm|v He Hv Hm|v x He Hv Ha (id1' & Hid1 & E1) Hconst|f Hf Hm|f id1' Hf Ha Hid1 Hm].
    - apply Np. exists t, c, VariableMissing. split; [exact Ht|]. constructor; [exact Hc|]. destruct Hm as [Hm|Hm].
      + left. now rewrite <- (Hav df c Hcol).
      + right. intros j Hj. destruct (Hall j Hj) as (j' & Hj' & Sj). rewrite (same_value md n df lv j df' lv' j' t c Sj Ht). now apply Hm.
    - apply Hm, (Hav df v Hcol), (Me t), Hv.
    - destruct (Hsrc' id1' Hid1) as (df1 & ids1 & lv1 & id1 & _ & Np1 & Me1 & _ & Hid1s & Hs1 & Hall1).
      apply Np1. exists t, v, NoVariance. split; [exact Ht|].
      apply (measurement_constant _ _ _ _ _ _ _ _ _ v x); [exact He|exact Hv|exact (Me1 t v Hv)| |].
      + exists id1. split; [assumption|]. now rewrite (same_value md n df1 lv1 id1 df' lv' id1' t v Hs1 Ht).
      + intros j y Hj Ey. destruct (Hall1 j Hj) as (j' & Hj' & Sj). apply (Hconst j' y Hj').
        now rewrite <- (same_value md n df1 lv1 j df' lv' j' t v Sj Ht).
    - apply Np. exists t, f, VariableMissing. split; [exact Ht|]. apply observed_absent; [exact Hf|]. now rewrite <- (Hav df f Hcol).
    - destruct (Hsrc' id1' Hid1) as (df1 & ids1 & lv1 & id1 & _ & Np1 & _ & Hcol1 & Hid1s & Hs1 & _).
      apply Np1. exists t, f, HasMissings. split; [exact Ht|].
      apply (observed_incomplete _ _ _ _ _ _ _ _ _ f id1); [exact Hf|now apply (Hav df1 f Hcol1)|exact Hid1s|].
      now rewrite (same_value md n df1 lv1 id1 df' lv' id1' t f Hs1 Ht).
  Qed.
End Assembled.

(** ** Relabelled data sets *)

Section Relabelled.
  Variables (phi psi : Z -> Z).

  Lemma sorted_map lv : StronglySorted Z.lt lv ->
    (forall a b, In a lv -> In b lv -> (a < b)%Z -> (psi a < psi b)%Z) -> StronglySorted Z.lt (map psi lv).
  Proof.
    induction 1 as [|a l _ IH F]; intros Hm; [constructor|]. cbn [map]. constructor.
    - apply IH. intros x y Hx Hy. apply Hm; now right.
    - rewrite Forall_forall in *. intros y Hy. apply in_map_iff in Hy as (x & <- & Hx). apply Hm; [now left|now right|now apply F].
  Qed.

  Context {V : Type}.
  Variables (df : frame V) (ids lv : list Z).
  Hypothesis Hr : relabelling phi psi df.
  Hypothesis Hwf : wf_frame df.
  Hypothesis Hids : ids_of df ids.
  Hypothesis Hlv : levels_of df lv.

  Lemma psi_inj a b : In a (fr_period_level df) -> In b (fr_period_level df) -> psi a = psi b -> a = b.
  Proof.
    intros Ha Hb E. destruct Hr as [_ Hpsi]. destruct (Z.lt_trichotomy a b) as [L|[L|L]]; [|exact L|];
      [specialize (Hpsi a b Ha Hb L)|specialize (Hpsi b a Hb Ha L)]; lia.
  Qed.

  Lemma ids_level id : In id ids -> In id (fr_id_level df).
  Proof. intros H. apply Hids in H as (r & Hin & <-). now apply Hwf. Qed.

  Lemma relabelled_wf : wf_frame (relabel phi psi df).
  Proof.
    intros r' H. apply in_map_iff in H as (r & <- & H). cbn. destruct (Hwf r H) as [A B]. split; now apply in_map.
  Qed.

  Lemma relabelled_ids : ids_of (relabel phi psi df) (zsort_unique (map phi ids)).
  Proof.
    destruct (ascending_zsort (map phi ids)) as [S E]. split; [exact S|]. intros z. rewrite E. split.
    - intros H. apply in_map_iff in H as (id & <- & H). apply Hids in H as (r & H & <-).
      eexists. split; [apply in_map, H|reflexivity].
    - intros (r' & H & <-). apply in_map_iff in H as (r & <- & H). cbn. apply in_map. apply Hids. now exists r.
  Qed.

  Lemma relabelled_levels : levels_of (relabel phi psi df) (map psi lv).
  Proof.
    destruct Hlv as [S E]. split.
    - apply (sorted_map lv S). intros a b Ha Hb. apply Hr; now apply E.
    - intros z. cbn. rewrite !in_map_iff. split; intros (x & <- & Hx); exists x; (split; [reflexivity|now apply E]).
  Qed.

  Lemma relabelled_unique : unique_index df -> unique_index (relabel phi psi df).
  Proof.
    unfold unique_index. cbn [relabel fr_rows]. rewrite map_map. cbn [dr_id dr_period].
    assert (G : forall rows, (forall r, In r rows -> In r (fr_rows df)) -> NoDup (map (fun r => (dr_id r, dr_period r)) rows) ->
      NoDup (map (fun r => (phi (dr_id r), psi (dr_period r))) rows)).
    { induction rows as [|r rows IH]; intros Hin Hnd; [constructor|]. cbn [map] in *. inversion Hnd as [|? ? Hn Hnd']; subst.
      constructor; [|apply IH; [intros x Hx; apply Hin; now right|exact Hnd']].
      intros F. apply in_map_iff in F as (r2 & E & H2). injection E as E1 E2. apply Hn. apply in_map_iff. exists r2. split; [|exact H2].
      destruct (Hwf r2 (Hin r2 (or_intror H2))) as [A2 B2], (Hwf r (Hin r (or_introl eq_refl))) as [A B].
      f_equal; [now apply (proj1 Hr)|now apply psi_inj]. }
    apply G. auto.
  Qed.

  Lemma find_relabelled id z rows : (forall r, In r rows -> In r (fr_rows df)) -> In id (fr_id_level df) -> In z (fr_period_level df) ->
    find (fun r => Z.eqb (dr_id r) (phi id) && Z.eqb (dr_period r) (psi z))
      (map (fun r => mk_drow (phi (dr_id r)) (psi (dr_period r)) (dr_cells r)) rows)
    = option_map (fun r => mk_drow (phi (dr_id r)) (psi (dr_period r)) (dr_cells r))
        (find (fun r => Z.eqb (dr_id r) id && Z.eqb (dr_period r) z) rows).
  Proof.
    intros Hin Hid Hz. induction rows as [|r rows IH]; [reflexivity|]. cbn [map find dr_id dr_period].
    destruct (Hwf r (Hin r (or_introl eq_refl))) as [A B].
    replace (Z.eqb (phi (dr_id r)) (phi id)) with (Z.eqb (dr_id r) id).
    2:{ destruct (Z.eqb_spec (dr_id r) id) as [->|N]; [now rewrite Z.eqb_refl|]. symmetry. apply Z.eqb_neq. intros F. now apply N, (proj1 Hr). }
    replace (Z.eqb (psi (dr_period r)) (psi z)) with (Z.eqb (dr_period r) z).
    2:{ destruct (Z.eqb_spec (dr_period r) z) as [->|N]; [now rewrite Z.eqb_refl|]. symmetry. apply Z.eqb_neq. intros F. now apply N, psi_inj. }
    destruct (Z.eqb (dr_id r) id && Z.eqb (dr_period r) z); [reflexivity|]. apply IH. intros x Hx. apply Hin. now right.
  Qed.

  Lemma relabelled_cells id t x : In id ids -> raw_cells (relabel phi psi df) (map psi lv) (phi id) t x = raw_cells df lv id t x.
  Proof.
    intros Hid. unfold raw_cells. rewrite nth_error_map. destruct (nth_error lv t) as [z|] eqn:Ez; [|reflexivity]. cbn [option_map].
    cbn [relabel fr_rows]. rewrite find_relabelled; [|auto|now apply ids_level|apply Hlv; now apply nth_error_In in Ez].
    now destruct (find _ (fr_rows df)).
  Qed.
End Relabelled.

Lemma relabelled_permutation phi (ids ids' : list Z) : NoDup ids -> NoDup ids' ->
  (forall a b, In a ids -> In b ids -> phi a = phi b -> a = b) ->
  (forall z, In z ids' <-> exists id, In id ids /\ z = phi id) -> Permutation (map phi ids) ids'.
Proof.
  intros H H' Hinj E. apply NoDup_Permutation; [|exact H'|].
  - clear -H Hinj. induction H as [|a l Ha _ IH]; [constructor|]. cbn [map]. constructor.
    + intros F. apply in_map_iff in F as (b & Eb & Hb). apply Ha. rewrite <- (Hinj b a); [exact Hb|now right|now left|exact Eb].
    + apply IH. intros x y Hx Hy. apply Hinj; now right.
  - intros z. rewrite E, in_map_iff. split; intros (id & A & B); exists id; auto.
Qed.

(** Identifiers are only labels: a data set in which the individuals and periods have
    other identifiers, with the periods in the same order, is accepted, the log likelihood
    is the same and so is the contribution of every individual. *)
Theorem C115_relabelled :
  forall qr nan neg_inf custom md p n df ids lv ar params ps debug phi psi,
    local_qr qr -> (1 <= n)%nat ->
    likelihood_setting md p n df ids lv ar params ps ->
    relabelling phi psi df ->
    let tfunc := model_tfunc nan neg_inf custom md (p_labels p) in
    exists ids' ar' ps',
      likelihood_setting md p n (relabel phi psi df) ids' (map psi lv) ar' params ps' /\
      (forall z, In z ids' <-> exists id, In id ids /\ z = phi id) /\
      match log_likelihood qr nan tfunc p ar debug params, log_likelihood qr nan tfunc p ar' debug params with
      | Ok out, Ok out' =>
          out_value out' = out_value out /\
          forall i j id, nth_error ids i = Some id -> nth_error ids' j = Some (phi id) ->
            out_contributions out' j = out_contributions out i
      | Err e, Err e' => e = e'
      | _, _ => False
      end.
Proof.
  intros qr nan neg_inf custom md p n df ids lv ar params ps debug phi psi Hqr H1 H Hr tfunc.
  pose proof H as (Hd & Hg & Har & Hlen & Hps). pose proof Hd as (Hwf & Hp & Hn & Hcl & Hdf & Hids & Hlv).
  set (ids' := zsort_unique (map phi ids)). set (df' := relabel phi psi df).
  assert (Hd' : data_setting md p n df' ids' (map psi lv))
    by exact (conj Hwf (conj Hp (conj Hn (conj Hcl (conj (relabelled_wf phi psi df Hdf) (conj (relabelled_ids phi psi df ids Hids)
         (relabelled_levels phi psi df lv Hr Hlv))))))).
  assert (Hin' : forall z, In z ids' <-> exists id, In id ids /\ z = phi id).
  { intros z. unfold ids'. destruct (ascending_zsort (map phi ids)) as [_ ->]. rewrite in_map_iff.
    split; intros (id & A & B); exists id; auto. }
  assert (Hs : forall id, In id ids -> same_data n df lv id df' (map psi lv) (phi id)).
  { intros id Hid t x _. symmetry. now apply (relabelled_cells phi psi df ids lv). }
  pose proof (nobody_fails md p n df ids lv ar Hd Har H1) as Hne.
  destruct (some_member ids Hne) as [id0 Hid0]. clear Hne.
  destruct (assembled_processing md p n df' ids' (map psi lv) Hd') as [ar' Har'].
  { apply (relabelled_unique phi psi df Hr Hdf).
    destruct (C28_check_exact 1 req md p n df ids lv true req_spec Hd) as [[Ok1 _] _]. destruct Ok1 as (U & _); [now exists ar|exact U]. }
  { intros F. assert (G : In (phi id0) ids') by (apply Hin'; now exists id0). rewrite F in G. destruct G. }
  { intros id' Hid'. apply Hin' in Hid' as (id & Hid & ->). exists df, ids, lv, ar, id.
    split; [exact Hd|]. split; [exact Har|]. split; [reflexivity|]. split; [exact Hid|]. split; [now apply Hs|].
    intros j Hj. exists (phi j). split; [apply Hin'; now exists j|now apply Hs]. }
  destruct (parse_n_obs p params (length ids) (length ids') ps Hps) as (ps' & _ & _ & _ & Hps' & _).
  assert (H' : likelihood_setting md p n df' ids' (map psi lv) ar' params ps') by exact (conj Hd' (conj Hg (conj Har' (conj Hlen Hps')))).
  exists ids', ar', ps'. split; [exact H'|]. split; [exact Hin'|].
  assert (Hc : forall i j id, nth_error ids i = Some id -> nth_error ids' j = Some (phi id) ->
    match log_likelihood qr nan tfunc p ar debug params, log_likelihood qr nan tfunc p ar' debug params with
    | Ok out, Ok out' => out_contributions out i = out_contributions out' j | Err e, Err e' => e = e' | _, _ => False end).
  { intros i j id Hi Hj. apply (C43_for_the_model_transition qr nan neg_inf custom md p n df ids lv ar df' ids' (map psi lv) ar'
      params ps ps' debug i id j (phi id) Hqr H H' Hi Hj). apply Hs. now apply nth_error_In in Hi. }
  assert (Hpos : forall id, In id ids -> exists i j, nth_error ids i = Some id /\ nth_error ids' j = Some (phi id)).
  { intros id Hid. assert (G : In (phi id) ids') by (apply Hin'; now exists id).
    destruct (In_nth_error _ _ Hid) as [i Hi], (In_nth_error _ _ G) as [j Hj]. now exists i, j. }
  destruct (Hpos id0 Hid0) as (i0 & j0 & Hi0 & Hj0). pose proof (Hc i0 j0 id0 Hi0 Hj0) as Hc0.
  destruct (log_likelihood qr nan tfunc p ar debug params) as [out|e] eqn:Eo,
    (log_likelihood qr nan tfunc p ar' debug params) as [out'|e'] eqn:Eo'; try exact Hc0.
  split; [|intros i j id Hi Hj; symmetry; exact (Hc i j id Hi Hj)].
  destruct (C42_sum_of_contributions qr nan tfunc md p n df ids lv ar params ps debug out H Eo) as [-> _].
  destruct (C42_sum_of_contributions qr nan tfunc md p n df' ids' (map psi lv) ar' params ps' debug out' H' Eo') as [-> _].
  assert (Nd : NoDup ids) by exact (ascending_NoDup _ _ Hids).
  assert (Nd' : NoDup ids') by exact (ascending_NoDup _ _ (ascending_zsort (map phi ids))).
  destruct (sum_by_id ids (out_contributions out) Nd) as (g & Hgg & ->).
  destruct (sum_by_id ids' (out_contributions out') Nd') as (g' & Hgg' & ->).
  rewrite <- (sum_list_permutation (map g' (map phi ids)) (map g' ids')).
  - rewrite map_map. f_equal. apply map_ext_in. intros id Hid. destruct (Hpos id Hid) as (i & j & Hi & Hj).
    rewrite <- (Hgg i id Hi), <- (Hgg' j (phi id) Hj). symmetry. exact (Hc i j id Hi Hj).
  - apply Permutation_map, relabelled_permutation; [exact Nd|exact Nd'| |exact Hin'].
    intros a b Ha Hb. apply (proj1 Hr); now apply (ids_level df ids Hdf Hids).
Qed.
Print Assumptions C115_relabelled.

(** ** Pooled data sets *)

Section Pooled.
  Context {V : Type}.
  Variables (df1 df2 : frame V) (ids1 ids2 lv : list Z).
  Hypothesis Hwf1 : wf_frame df1.
  Hypothesis Hwf2 : wf_frame df2.
  Hypothesis Hids1 : ids_of df1 ids1.
  Hypothesis Hids2 : ids_of df2 ids2.
  Hypothesis Hlv1 : levels_of df1 lv.
  Hypothesis Hlv2 : levels_of df2 lv.
  Hypothesis Hdis : forall id, In id ids1 -> ~ In id ids2.

  Lemma pooled_wf : wf_frame (pool df1 df2).
  Proof.
    intros r H. cbn in *. rewrite !in_app_iff in *. destruct H as [H|H]; [apply Hwf1 in H|apply Hwf2 in H]; tauto.
  Qed.

  Lemma pooled_in z : In z (zsort_unique (ids1 ++ ids2)) <-> In z ids1 \/ In z ids2.
  Proof. destruct (ascending_zsort (ids1 ++ ids2)) as [_ ->]. apply in_app_iff. Qed.

  Lemma pooled_ids : ids_of (pool df1 df2) (zsort_unique (ids1 ++ ids2)).
  Proof.
    split; [apply ascending_zsort|]. intros z. rewrite pooled_in. split.
    - intros [H|H]; [apply Hids1 in H as (r & H & E)|apply Hids2 in H as (r & H & E)]; exists r; (split; [|exact E]); cbn; apply in_app_iff; tauto.
    - intros (r & H & E). cbn in H. apply in_app_iff in H as [H|H]; [left; apply Hids1|right; apply Hids2]; now exists r.
  Qed.

  Lemma pooled_levels : levels_of (pool df1 df2) lv.
  Proof.
    destruct Hlv1 as [S E1], Hlv2 as [_ E2]. split; [exact S|]. intros z. cbn. rewrite in_app_iff. specialize (E1 z). specialize (E2 z). tauto.
  Qed.

  Lemma pooled_unique : unique_index df1 -> unique_index df2 -> unique_index (pool df1 df2).
  Proof.
    unfold unique_index. cbn [pool fr_rows]. rewrite map_app. intros U1 U2.
    assert (D : forall k, In k (map (fun r => (dr_id r, dr_period r)) (fr_rows df1)) -> ~ In k (map (fun r => (dr_id r, dr_period r)) (fr_rows df2))).
    { intros k H1 H2. apply in_map_iff in H1 as (r1 & <- & H1), H2 as (r2 & E & H2). injection E as E _.
      apply (Hdis (dr_id r1)); [apply Hids1; now exists r1|apply Hids2; now exists r2]. }
    revert U1 D. generalize (map (fun r : drow V => (dr_id r, dr_period r)) (fr_rows df1)). intros l. induction l as [|k l IH]; intros U1 D; [exact U2|].
    inversion U1 as [|? ? Hk Hl]; subst. cbn [app]. constructor.
    - rewrite in_app_iff. intros [F|F]; [contradiction|]. apply (D k); [now left|exact F].
    - apply IH; [exact Hl|]. intros x Hx. apply D. now right.
  Qed.

  Lemma find_app {A} (f : A -> bool) l l' : find f (l ++ l') = match find f l with Some x => Some x | None => find f l' end.
  Proof. induction l as [|x l IH]; [reflexivity|]. cbn. now destruct (f x). Qed.

  Lemma no_row df ids id z : ids_of df ids -> ~ In id ids ->
    find (fun r : drow V => Z.eqb (dr_id r) id && Z.eqb (dr_period r) z) (fr_rows df) = None.
  Proof.
    intros Hi Hn. destruct (find _ _) as [r|] eqn:E; [|reflexivity]. apply find_some in E as [H E]. apply andb_prop in E as [E _].
    apply Z.eqb_eq in E. destruct Hn. apply Hi. now exists r.
  Qed.

  Lemma pooled_first id t x : In id ids1 -> raw_cells (pool df1 df2) lv id t x = raw_cells df1 lv id t x.
  Proof.
    intros Hid. unfold raw_cells. destruct (nth_error lv t) as [z|]; [|reflexivity]. cbn [pool fr_rows]. rewrite find_app.
    rewrite (no_row df2 ids2 id z Hids2 (Hdis id Hid)). now destruct (find _ (fr_rows df1)).
  Qed.

  Lemma pooled_second id t x : In id ids2 -> raw_cells (pool df1 df2) lv id t x = raw_cells df2 lv id t x.
  Proof.
    intros Hid. unfold raw_cells. destruct (nth_error lv t) as [z|]; [|reflexivity]. cbn [pool fr_rows]. rewrite find_app.
    rewrite (no_row df1 ids1 id z Hids1); [reflexivity|]. intros F. exact (Hdis id F Hid).
  Qed.
End Pooled.

(** Pooled data add up: two accepted data sets with the same columns and periods but
    different individuals can be pooled; the log likelihood of the pooled data is the sum of
    the two log likelihoods and every individual contributes what it contributed before. *)
Theorem C115_pooled :
  forall qr nan neg_inf custom md p n df1 ids1 ar1 ps1 df2 ids2 ar2 ps2 lv params debug,
    local_qr qr -> (1 <= n)%nat ->
    likelihood_setting md p n df1 ids1 lv ar1 params ps1 ->
    likelihood_setting md p n df2 ids2 lv ar2 params ps2 ->
    fr_columns df2 = fr_columns df1 -> (forall id, In id ids1 -> ~ In id ids2) ->
    let tfunc := model_tfunc nan neg_inf custom md (p_labels p) in
    exists ids ar ps,
      likelihood_setting md p n (pool df1 df2) ids lv ar params ps /\
      (forall z, In z ids <-> In z ids1 \/ In z ids2) /\
      match log_likelihood qr nan tfunc p ar1 debug params, log_likelihood qr nan tfunc p ar2 debug params,
            log_likelihood qr nan tfunc p ar debug params with
      | Ok out1, Ok out2, Ok out =>
          out_value out = out_value out1 + out_value out2 /\
          (forall i j id, nth_error ids1 i = Some id -> nth_error ids j = Some id ->
             out_contributions out j = out_contributions out1 i) /\
          (forall i j id, nth_error ids2 i = Some id -> nth_error ids j = Some id ->
             out_contributions out j = out_contributions out2 i)
      | Err e1, Err e2, Err e => e1 = e /\ e2 = e
      | _, _, _ => False
      end.
Proof.
  intros qr nan neg_inf custom md p n df1 ids1 ar1 ps1 df2 ids2 ar2 ps2 lv params debug Hqr H1 HA HB Hcol Hdis tfunc.
  pose proof HA as (Hd1 & Hg & Har1 & Hlen & Hps1). pose proof Hd1 as (Hwf & Hp & Hn & Hcl & Hdf1 & Hids1 & Hlv1).
  pose proof HB as (Hd2 & _ & Har2 & _ & Hps2). pose proof Hd2 as (_ & _ & _ & _ & Hdf2 & Hids2 & Hlv2).
  set (ids := zsort_unique (ids1 ++ ids2)). set (df := pool df1 df2).
  assert (Hd : data_setting md p n df ids lv)
    by exact (conj Hwf (conj Hp (conj Hn (conj Hcl (conj (pooled_wf df1 df2 Hdf1 Hdf2) (conj (pooled_ids df1 df2 ids1 ids2 Hids1 Hids2)
         (pooled_levels df1 df2 lv Hlv1 Hlv2))))))).
  assert (Hin : forall z, In z ids <-> In z ids1 \/ In z ids2) by (intros z; apply pooled_in).
  assert (S1 : forall id, In id ids1 -> same_data n df1 lv id df lv id).
  { intros id Hid t x _. symmetry. now apply (pooled_first df1 df2 ids1 ids2). }
  assert (S2 : forall id, In id ids2 -> same_data n df2 lv id df lv id).
  { intros id Hid t x _. symmetry. now apply (pooled_second df1 df2 ids1 ids2). }
  destruct (some_member ids1 (nobody_fails md p n df1 ids1 lv ar1 Hd1 Har1 H1)) as [a Ha].
  destruct (some_member ids2 (nobody_fails md p n df2 ids2 lv ar2 Hd2 Har2 H1)) as [b Hb].
  destruct (assembled_processing md p n df ids lv Hd) as [ar Har].
  { destruct (C28_check_exact 1 req md p n df1 ids1 lv true req_spec Hd1) as [[Ok1 _] _]. destruct Ok1 as (U1 & _); [now exists ar1|].
    destruct (C28_check_exact 1 req md p n df2 ids2 lv true req_spec Hd2) as [[Ok2 _] _]. destruct Ok2 as (U2 & _); [now exists ar2|].
    exact (pooled_unique df1 df2 ids1 ids2 Hids1 Hids2 Hdis U1 U2). }
  { intros F. assert (G : In a ids) by (apply Hin; now left). rewrite F in G. destruct G. }
  { intros id Hid. apply Hin in Hid as [Hid|Hid].
    - exists df1, ids1, lv, ar1, id. split; [exact Hd1|]. split; [exact Har1|]. split; [reflexivity|]. split; [exact Hid|].
      split; [now apply S1|]. intros j Hj. exists j. split; [apply Hin; now left|now apply S1].
    - exists df2, ids2, lv, ar2, id. split; [exact Hd2|]. split; [exact Har2|]. split; [now rewrite Hcol|]. split; [exact Hid|].
      split; [now apply S2|]. intros j Hj. exists j. split; [apply Hin; now right|now apply S2]. }
  destruct (parse_n_obs p params (length ids1) (length ids) ps1 Hps1) as (ps & _ & _ & _ & Hps & _).
  assert (H : likelihood_setting md p n df ids lv ar params ps) by exact (conj Hd (conj Hg (conj Har (conj Hlen Hps)))).
  exists ids, ar, ps. split; [exact H|]. split; [exact Hin|].
  assert (C1 : forall i j id, nth_error ids1 i = Some id -> nth_error ids j = Some id ->
    match log_likelihood qr nan tfunc p ar1 debug params, log_likelihood qr nan tfunc p ar debug params with
    | Ok out, Ok out' => out_contributions out i = out_contributions out' j | Err e, Err e' => e = e' | _, _ => False end).
  { intros i j id Hi Hj. apply (C43_for_the_model_transition qr nan neg_inf custom md p n df1 ids1 lv ar1 df ids lv ar
      params ps1 ps debug i id j id Hqr HA H Hi Hj). apply S1. now apply nth_error_In in Hi. }
  assert (C2 : forall i j id, nth_error ids2 i = Some id -> nth_error ids j = Some id ->
    match log_likelihood qr nan tfunc p ar2 debug params, log_likelihood qr nan tfunc p ar debug params with
    | Ok out, Ok out' => out_contributions out i = out_contributions out' j | Err e, Err e' => e = e' | _, _ => False end).
  { intros i j id Hi Hj. apply (C43_for_the_model_transition qr nan neg_inf custom md p n df2 ids2 lv ar2 df ids lv ar
      params ps2 ps debug i id j id Hqr HB H Hi Hj). apply S2. now apply nth_error_In in Hi. }
  assert (P1 : forall id, In id ids1 -> exists i j, nth_error ids1 i = Some id /\ nth_error ids j = Some id).
  { intros id Hid. assert (G : In id ids) by (apply Hin; now left).
    destruct (In_nth_error _ _ Hid) as [i Hi], (In_nth_error _ _ G) as [j Hj]. now exists i, j. }
  assert (P2 : forall id, In id ids2 -> exists i j, nth_error ids2 i = Some id /\ nth_error ids j = Some id).
  { intros id Hid. assert (G : In id ids) by (apply Hin; now right).
    destruct (In_nth_error _ _ Hid) as [i Hi], (In_nth_error _ _ G) as [j Hj]. now exists i, j. }
  destruct (P1 a Ha) as (ia & ja & Hia & Hja). pose proof (C1 ia ja a Hia Hja) as Ca.
  destruct (P2 b Hb) as (ib & jb & Hib & Hjb). pose proof (C2 ib jb b Hib Hjb) as Cb.
  destruct (log_likelihood qr nan tfunc p ar1 debug params) as [out1|e1] eqn:E1,
    (log_likelihood qr nan tfunc p ar2 debug params) as [out2|e2] eqn:E2,
    (log_likelihood qr nan tfunc p ar debug params) as [out|e] eqn:Eo; try contradiction.
  2:{ split; assumption. }
  split; [|split; intros i j id Hi Hj; symmetry; [exact (C1 i j id Hi Hj)|exact (C2 i j id Hi Hj)]].
  destruct (C42_sum_of_contributions qr nan tfunc md p n df1 ids1 lv ar1 params ps1 debug out1 HA E1) as [-> _].
  destruct (C42_sum_of_contributions qr nan tfunc md p n df2 ids2 lv ar2 params ps2 debug out2 HB E2) as [-> _].
  destruct (C42_sum_of_contributions qr nan tfunc md p n df ids lv ar params ps debug out H Eo) as [-> _].
  assert (Nd1 : NoDup ids1) by exact (ascending_NoDup _ _ Hids1).
  assert (Nd2 : NoDup ids2) by exact (ascending_NoDup _ _ Hids2).
  assert (Nd : NoDup ids) by exact (ascending_NoDup _ _ (ascending_zsort (ids1 ++ ids2))).
  destruct (sum_by_id ids1 (out_contributions out1) Nd1) as (g1 & G1 & ->).
  destruct (sum_by_id ids2 (out_contributions out2) Nd2) as (g2 & G2 & ->).
  destruct (sum_by_id ids (out_contributions out) Nd) as (g & G & ->).
  rewrite <- (sum_list_permutation (map g (ids1 ++ ids2)) (map g ids)).
  - rewrite map_app, sum_list_app. f_equal; f_equal; apply map_ext_in; intros id Hid.
    + destruct (P1 id Hid) as (i & j & Hi & Hj). rewrite <- (G1 i id Hi), <- (G j id Hj). symmetry. exact (C1 i j id Hi Hj).
    + destruct (P2 id Hid) as (i & j & Hi & Hj). rewrite <- (G2 i id Hi), <- (G j id Hj). symmetry. exact (C2 i j id Hi Hj).
  - apply Permutation_map, NoDup_Permutation; [|exact Nd|intros z; rewrite in_app_iff; symmetry; apply Hin].
    clear -Nd1 Nd2 Hdis. induction Nd1 as [|x l Hx _ IH]; [exact Nd2|]. cbn [app]. constructor.
    + rewrite in_app_iff. intros [F|F]; [contradiction|]. exact (Hdis x (or_introl eq_refl) F).
    + apply IH. intros y Hy. apply Hdis. now right.
Qed.
Print Assumptions C115_pooled.

(** ** An example *)

(** The individuals of the example in reverse order, with other identifiers, and the
    periods counted from one; then the data set is pooled with a copy of itself in which
    the individuals have new identifiers. *)
Definition other_ids (z : Z) : Z := (100 - z)%Z.
Definition other_periods (z : Z) : Z := (z / 10)%Z.

Lemma example_relabelling psi : (forall a b, In a ex_lv -> In b ex_lv -> (a < b)%Z -> (psi a < psi b)%Z) ->
  relabelling other_ids psi (real_frame ex_df).
Proof. intros H. split; [intros a b _ _; unfold other_ids; lia|exact H]. Qed.

Example C115_nonvacuous :
  relabelling other_ids other_periods (real_frame ex_df) /\
  exists ar ps ids' ar' ps',
    likelihood_setting single_model single_p 3 (real_frame ex_df) ex_ids ex_lv ar single_params ps /\
    likelihood_setting single_model single_p 3 (relabel other_ids (fun z => z) (real_frame ex_df)) ids' ex_lv ar' single_params ps' /\
    (forall id, In id ex_ids -> ~ In id ids') /\ In 97%Z ids' /\
    local_qr gram_schmidt /\
    forall nan tfunc debug, exists out out', log_likelihood gram_schmidt nan tfunc single_p ar debug single_params = Ok out /\
      log_likelihood gram_schmidt nan tfunc single_p ar' debug single_params = Ok out'.
Proof.
  split.
  { apply example_relabelling. intros a b Ha Hb. unfold ex_lv in *. cbn in Ha, Hb.
    destruct Ha as [<-|[<-|[<-|[]]]], Hb as [<-|[<-|[<-|[]]]]; unfold other_periods; cbn; lia. }
  destruct single_example as (ar & ps & H).
  destruct (C115_relabelled gram_schmidt 0 0 (fun _ _ _ _ => Ok 0) single_model single_p 3 (real_frame ex_df) ex_ids ex_lv ar single_params ps
    false other_ids (fun z => z) gram_schmidt_local ltac:(lia) H) as (ids' & ar' & ps' & H' & Hin & _).
  { apply example_relabelling. auto. }
  rewrite map_id in H'. exists ar, ps, ids', ar', ps'. split; [exact H|]. split; [exact H'|]. split; [|split; [|split; [exact gram_schmidt_local|]]].
  - intros id Hid F. apply Hin in F as (id2 & Hid2 & E). unfold ex_ids, other_ids in *. cbn in Hid, Hid2. lia.
  - apply Hin. exists 3%Z. split; [now left|reflexivity].
  - intros nan tfunc debug.
    destruct (likelihood_events gram_schmidt nan tfunc _ _ _ _ _ _ _ _ _ debug H) as (recs & out & _ & _ & E & _);
      [apply shapes_fit_spec; right; right; reflexivity|].
    destruct (likelihood_events gram_schmidt nan tfunc _ _ _ _ _ _ _ _ _ debug H') as (recs' & out' & _ & _ & E' & _);
      [apply shapes_fit_spec; right; right; reflexivity|]. exists out, out'. now split.
Qed.
