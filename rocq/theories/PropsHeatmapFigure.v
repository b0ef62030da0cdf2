(** Properties of the figure of correlation_heatmap.py: C63 and C78 - C80. *)
Require Import Reals String Arith ZArith QArith Bool List Lia Lra Permutation Sorted.
From Verif Require Import PyBase ModelSpec ProcessModel CheckModel SpecModel SpecParse SpecIndex
  ParamsIndex ParseParams ParamsVec ProcessData SpecData SpecTransition ListFacts StringFacts
  Heatmap SpecHeatmap HeatmapFacts HeatmapDataFacts PropsData PropsSpec ExampleModels PropsHeatmap.
Import ListNotations.
Open Scope string_scope.
Open Scope list_scope.
Open Scope nat_scope.

(** ** Selections *)

Fixpoint positions (keep : list bool) : list nat :=
  match keep with
  | [] => []
  | b :: keep' => (if b then [0] else []) ++ map S (positions keep')
  end.

Lemma In_positions keep i : In i (positions keep) <-> nth_error keep i = Some true.
Proof.
  revert i. induction keep as [|b keep IH]; intros i; [destruct i; simpl; split; (tauto || discriminate)|].
  cbn [positions]. rewrite in_app_iff, in_map_iff. destruct i as [|i]; cbn [nth_error].
  - split.
    + intros [H|(j & E & _)]; [|discriminate]. destruct b; [reflexivity|destruct H].
    + intros [= ->]. left. now left.
  - rewrite <- IH. split.
    + intros [H|(j & [= ->] & H)]; [|exact H]. destruct b; [|destruct H]. destruct H as [H|[]]. discriminate.
    + intros H. right. now exists i.
Qed.

Lemma positions_sorted keep : StronglySorted lt (positions keep).
Proof.
  induction keep as [|b keep IH]; [constructor|]. cbn [positions].
  assert (H : StronglySorted lt (map S (positions keep))).
  { clear -IH. induction IH as [|x l Hs IH Hf]; simpl; constructor; [assumption|].
    rewrite Forall_forall in *. intros y Hy. apply in_map_iff in Hy as (z & <- & Hz).
    apply Hf in Hz. lia. }
  destruct b; simpl; [|exact H]. constructor; [exact H|].
  rewrite Forall_forall. intros y Hy. apply in_map_iff in Hy as (z & <- & _). lia.
Qed.

Lemma select_positions {A} keep (l : list A) : length keep = length l ->
  Forall2 (fun i x => nth_error l i = Some x) (positions keep) (select keep l).
Proof.
  unfold select. revert l. induction keep as [|b keep IH]; intros [|x l] Hl; try discriminate; [constructor|].
  cbn [positions combine filter].
  assert (H : Forall2 (fun i y => nth_error (x :: l) i = Some y) (map S (positions keep))
                      (map snd (filter fst (combine keep l)))).
  { assert (H := IH l ltac:(now injection Hl)). clear -H. induction H; simpl; constructor; auto. }
  destruct b; simpl; [|exact H]. constructor; [reflexivity|exact H].
Qed.

Lemma combine_map_enumerate {A B} (f : nat * A -> B) (l : list A) :
  combine (map f (enumerate l)) l = map (fun ix => (f ix, snd ix)) (enumerate l).
Proof.
  unfold enumerate. generalize 0. induction l as [|x l IH]; intros k; simpl; [reflexivity|].
  now rewrite IH.
Qed.

Lemma combine_maps {A B C} (f : A -> B) (g : A -> C) l :
  combine (map f l) (map g l) = map (fun x => (f x, g x)) l.
Proof. induction l as [|x l IH]; simpl; [reflexivity|]. now rewrite IH. Qed.

(** ** What is shown *)

Lemma get_mask_visible su sd i j : get_mask su sd i j = true <-> visible su sd i j.
Proof.
  unfold get_mask, visible. rewrite !orb_true_iff, !andb_true_iff, !Nat.ltb_lt, Nat.eqb_eq. tauto.
Qed.

Section Shown.
  Variables (round : R -> R) (su sd : bool) (c : corr_df).
  Hypothesis Hc : rectangular c.

  Definition shown_cell (i j : nat) (x : option R) : option R :=
    if get_mask su sd i j then option_map round x else None.
  Definition shown_cells : list (list (option R)) :=
    map (fun ir => map (fun jx => shown_cell (fst ir) (fst jx) (snd jx)) (enumerate (snd ir)))
        (enumerate (co_cells c)).
  Definition shown_mask : list (list bool) :=
    map (fun ir => map (fun jx => get_mask su sd (fst ir) (fst jx)) (enumerate (snd ir)))
        (enumerate (co_cells c)).

  Lemma shown_cells_eq :
    map (fun mr => map (fun mx : bool * option R => if fst mx then option_map round (snd mx) else None)
                       (combine (fst mr) (snd mr))) (combine shown_mask (co_cells c)) = shown_cells.
  Proof.
    unfold shown_mask, shown_cells. rewrite combine_map_enumerate, map_map. apply map_ext.
    intros [i row]. cbn [fst snd]. rewrite combine_map_enumerate, map_map. apply map_ext.
    intros [j x]. reflexivity.
  Qed.

  Lemma shown_entry i j x : entry shown_cells i j x <-> displays su sd round c i j x.
  Proof.
    unfold displays, entry, shown_cells. split.
    - intros (row & H1 & H2). rewrite nth_error_map, nth_error_enumerate in H1.
      destruct (nth_error (co_cells c) i) as [r|] eqn:E1; [|discriminate]. injection H1 as <-.
      cbn [fst snd] in H2. rewrite nth_error_map, nth_error_enumerate in H2.
      destruct (nth_error r j) as [y|] eqn:E2; [|discriminate]. injection H2 as <-.
      exists y. split; [now exists r|]. unfold shown_cell. cbn [fst snd].
      destruct (get_mask su sd i j) eqn:E; split; intros H; try reflexivity.
      + exfalso. apply H. now apply get_mask_visible.
      + apply get_mask_visible in H. congruence.
    - intros (y & (r & H1 & H2) & Hv & Hn).
      exists (map (fun jx => shown_cell i (fst jx) (snd jx)) (enumerate r)).
      rewrite nth_error_map, nth_error_enumerate, H1. split; [reflexivity|].
      rewrite nth_error_map, nth_error_enumerate, H2. simpl. f_equal. unfold shown_cell.
      destruct (get_mask su sd i j) eqn:E.
      + symmetry. apply Hv. now apply get_mask_visible.
      + symmetry. apply Hn. intros H. apply get_mask_visible in H. congruence.
  Qed.

  Lemma shown_cells_length : length shown_cells = length (co_index c).
  Proof. unfold shown_cells. rewrite map_length, enumerate_length. apply Hc. Qed.

  Lemma shown_cells_row row : In row shown_cells -> length row = length (co_columns c).
  Proof.
    unfold shown_cells. intros H. apply in_map_iff in H as ([i r] & <- & H).
    apply In_enumerate, nth_error_In in H. rewrite map_length, enumerate_length. now apply Hc.
  Qed.

  Definition keeprows : list bool :=
    map (fun mr => existsb (fun b => b) (fst mr) && existsb notnull (snd mr))
        (combine shown_mask shown_cells).
  Definition keepcols : list bool :=
    map (fun j =>
        existsb (fun b => match b with Some true => true | _ => false end)
                (mcolumn j (select keeprows shown_mask)) &&
        existsb (fun x => match x with Some x => notnull x | None => false end)
                (mcolumn j (select keeprows shown_cells)))
      (range (length (co_columns c))).

  Lemma process_trim :
    process_corr_data round c su sd true =
    mk_corr (select keeprows (co_index c)) (select keepcols (co_columns c))
            (map (select keepcols) (select keeprows shown_cells)).
  Proof.
    unfold process_corr_data. fold shown_mask. rewrite shown_cells_eq. fold keeprows keepcols.
    reflexivity.
  Qed.

  Lemma process_full :
    process_corr_data round c su sd false = mk_corr (co_index c) (co_columns c) shown_cells.
  Proof. unfold process_corr_data. fold shown_mask. now rewrite shown_cells_eq. Qed.

  Lemma keeprows_length : length keeprows = length (co_index c).
  Proof.
    unfold keeprows. rewrite map_length, combine_length, shown_cells_length.
    unfold shown_mask. rewrite map_length, enumerate_length, (proj1 Hc). apply Nat.min_id.
  Qed.

  Lemma nth_keeprows i : nth_error keeprows i = Some true <-> exists j x, displays su sd round c i j (Some x).
  Proof.
    unfold keeprows, shown_mask, shown_cells. rewrite combine_maps, map_map, nth_error_map, nth_error_enumerate.
    destruct (nth_error (co_cells c) i) as [r|] eqn:E; cbn [option_map fst snd].
    - assert (Hx : (exists j x, displays su sd round c i j (Some x)) <->
        exists j x, nth_error (map (fun jx => shown_cell i (fst jx) (snd jx)) (enumerate r)) j = Some (Some x)).
      { split; intros (j & x & H); exists j, x.
        - apply shown_entry in H as (row & H1 & H2). unfold shown_cells in H1.
          rewrite nth_error_map, nth_error_enumerate, E in H1. injection H1 as <-. exact H2.
        - apply shown_entry. eexists. split; [|exact H]. unfold shown_cells.
          now rewrite nth_error_map, nth_error_enumerate, E. }
      rewrite Hx. clear Hx. split.
      + intros [= H]. apply andb_prop in H as [_ H]. apply existsb_exists in H as ([x|] & Hin & H); [|discriminate].
        apply In_nth_error in Hin as [j Hj]. now exists j, x.
      + intros (j & x & H). f_equal. apply andb_true_intro. split.
        * apply existsb_exists. exists true. split; [|reflexivity].
          rewrite nth_error_map, nth_error_enumerate in H.
          destruct (nth_error r j) as [y|] eqn:Ej; [|discriminate]. simpl in H. unfold shown_cell in H.
          destruct (get_mask su sd i j) eqn:Em; [|discriminate].
          apply in_map_iff. exists (j, y). split; [exact Em|]. now apply In_enumerate.
        * apply existsb_exists. exists (Some x). split; [|reflexivity]. now apply nth_error_In in H.
    - split; [discriminate|]. intros (j & x & y & (r & Hr & _) & _). congruence.
  Qed.

  Lemma nth_keepcols j : nth_error keepcols j = Some true <-> exists i x, displays su sd round c i j (Some x).
  Proof.
    unfold keepcols.
    destruct (Nat.lt_ge_cases j (length (co_columns c))) as [Hj|Hj].
    - rewrite nth_error_map, (nth_error_range _ _ Hj). cbn [option_map].
      assert (Lm : length keeprows = length shown_mask).
      { rewrite keeprows_length. unfold shown_mask. now rewrite map_length, enumerate_length, (proj1 Hc). }
      assert (Lc : length keeprows = length shown_cells) by now rewrite keeprows_length, shown_cells_length.
      assert (Sm := select_positions keeprows shown_mask Lm).
      assert (Sc := select_positions keeprows shown_cells Lc).
      split.
      + intros [= H]. apply andb_prop in H as [_ H].
        apply existsb_exists in H as ([[x|]|] & Hin & H); try discriminate.
        unfold mcolumn in Hin. apply in_map_iff in Hin as (row & Hx & Hrow).
        apply In_nth_error in Hrow as [a Ha].
        assert (G : exists i, nth_error shown_cells i = Some row).
        { clear -Sc Ha. revert a Ha. induction Sc as [|i y l l' Hi _ IH]; intros a Ha;
            [destruct a; discriminate|].
          destruct a as [|a]; simpl in Ha; [injection Ha as <-; now exists i|]. now apply (IH a). }
        destruct G as [i Hi]. exists i, x. apply shown_entry. now exists row.
      + intros (i & x & H). f_equal.
        assert (Hk : In i (positions keeprows)) by (apply In_positions, nth_keeprows; now exists j, x).
        apply shown_entry in H as (row & Hi & Hr).
        assert (G : forall {A} (m : list A) sel y, Forall2 (fun i x => nth_error m i = Some x) (positions keeprows) sel ->
                  nth_error m i = Some y -> In y sel).
        { intros A m sel y F. clear -Hk F. induction F as [|k z l l' Hkz F IH]; [destruct Hk|].
          intros Hy. destruct Hk as [->|Hk]; [left; congruence|right; now apply IH]. }
        apply andb_true_intro. split; apply existsb_exists.
        * assert (Hi2 := Hi). unfold shown_cells in Hi2. rewrite nth_error_map, nth_error_enumerate in Hi2.
          destruct (nth_error (co_cells c) i) as [r|] eqn:E; [|discriminate]. injection Hi2 as <-.
          rewrite nth_error_map, nth_error_enumerate in Hr. cbn [fst snd] in Hr.
          destruct (nth_error r j) as [y|] eqn:Ej; [|discriminate]. simpl in Hr. unfold shown_cell in Hr.
          destruct (get_mask su sd i j) eqn:Em; [|discriminate].
          exists (Some true). split; [|reflexivity]. unfold mcolumn. apply in_map_iff.
          exists (map (fun jx => get_mask su sd i (fst jx)) (enumerate r)). split.
          -- rewrite nth_error_map, nth_error_enumerate, Ej. simpl. now rewrite Em.
          -- apply (G _ shown_mask _ _ Sm). unfold shown_mask. now rewrite nth_error_map, nth_error_enumerate, E.
        * exists (Some (Some x)). split; [|reflexivity]. unfold mcolumn. apply in_map_iff.
          exists row. split; [exact Hr|]. exact (G _ shown_cells _ _ Sc Hi).
    - split.
      + intros H. rewrite (proj2 (nth_error_None _ _)) in H; [discriminate|].
        rewrite map_length. unfold range. rewrite seq_length. lia.
      + intros (i & x & y & (r & Hr & Hy) & _). apply nth_error_In in Hr. apply (proj2 Hc) in Hr.
        assert (j < length r) by (apply nth_error_Some; congruence). lia.
  Qed.

  Lemma keepcols_length : length keepcols = length (co_columns c).
  Proof. unfold keepcols. rewrite map_length. unfold range. apply seq_length. Qed.
End Shown.

Lemma Forall2_nth_error2 {A B} (P : A -> B -> Prop) l l' i y :
  Forall2 P l l' -> nth_error l' i = Some y -> exists x, nth_error l i = Some x /\ P x y.
Proof.
  intros H. revert i. induction H as [|a b l l' Hab _ IH]; intros i Hi; [destruct i; discriminate|].
  destruct i as [|i]; simpl in *; [|now apply IH]. injection Hi as <-. now exists a.
Qed.

Lemma plot_figure {U} round show c (a : heatmap_args U) fig :
  plot_correlation_heatmap round show c a = Ok fig ->
  let d := process_corr_data round c (ha_show_upper_triangle a) (ha_show_diagonal a) (ha_trim a) in
  fg_z fig = co_cells d /\ fg_x fig = co_columns d /\ fg_y fig = co_index d /\
  get_heatmap_kwargs d a = Ok (fg_heatmap fig) /\ fg_layout fig = get_layout_kwargs show d a.
Proof.
  unfold plot_correlation_heatmap. cbv zeta. intros H. apply rbind_ok in H as (hk & Hk & H).
  destruct (_ || _); [discriminate|]. injection H as <-. simpl. auto.
Qed.

(** ** C63 *)

(** Without trimming, the figure has the labels of the matrix; it shows its rounded
    values where they are visible and nothing elsewhere. *)
Theorem C63_cells {U} round show c (a : heatmap_args U) fig :
  rectangular c -> ha_trim a = false -> plot_correlation_heatmap round show c a = Ok fig ->
  fg_y fig = co_index c /\ fg_x fig = co_columns c /\
  length (fg_z fig) = length (fg_y fig) /\
  (forall row, In row (fg_z fig) -> length row = length (fg_x fig)) /\
  forall i j x, entry (fg_z fig) i j x <->
    displays (ha_show_upper_triangle a) (ha_show_diagonal a) round c i j x.
Proof.
  intros Hc Ht Hf. apply plot_figure in Hf. cbv zeta in Hf. rewrite Ht, process_full in Hf.
  destruct Hf as (-> & -> & -> & _). cbn [co_cells co_columns co_index].
  split; [reflexivity|]. split; [reflexivity|]. split; [now apply shown_cells_length|].
  split; [now apply shown_cells_row|]. intros i j x. apply shown_entry.
Qed.
Print Assumptions C63_cells.

(** With trimming, exactly the rows and columns without any visible value are left
    out. *)
Theorem C63_trimmed {U} round show c (a : heatmap_args U) fig :
  rectangular c -> ha_trim a = true -> plot_correlation_heatmap round show c a = Ok fig ->
  exists rows cols,
    StronglySorted lt rows /\ StronglySorted lt cols /\
    (forall i, In i rows <->
       exists j x, displays (ha_show_upper_triangle a) (ha_show_diagonal a) round c i j (Some x)) /\
    (forall j, In j cols <->
       exists i x, displays (ha_show_upper_triangle a) (ha_show_diagonal a) round c i j (Some x)) /\
    Forall2 (fun i l => nth_error (co_index c) i = Some l) rows (fg_y fig) /\
    Forall2 (fun j l => nth_error (co_columns c) j = Some l) cols (fg_x fig) /\
    length (fg_z fig) = length rows /\ (forall row, In row (fg_z fig) -> length row = length cols) /\
    forall k l i j, nth_error rows k = Some i -> nth_error cols l = Some j ->
      exists x, entry (fg_z fig) k l x /\
        displays (ha_show_upper_triangle a) (ha_show_diagonal a) round c i j x.
Proof.
  intros Hc Ht Hf. apply plot_figure in Hf. cbv zeta in Hf. rewrite Ht, process_trim in Hf.
  set (su := ha_show_upper_triangle a) in *. set (sd := ha_show_diagonal a) in *.
  destruct Hf as (-> & -> & -> & _). cbn [co_cells co_columns co_index].
  set (kr := keeprows round su sd c). set (kc := keepcols round su sd c).
  assert (Lr : length kr = length (co_index c)) by now apply keeprows_length.
  assert (Lc : length kc = length (co_columns c)) by now apply keepcols_length.
  assert (Lz : length kr = length (shown_cells round su sd c)).
  { rewrite Lr. symmetry. now apply shown_cells_length. }
  assert (Sz := select_positions kr _ Lz).
  exists (positions kr), (positions kc).
  split; [apply positions_sorted|]. split; [apply positions_sorted|].
  split; [intros i; rewrite In_positions; now apply nth_keeprows|].
  split; [intros j; rewrite In_positions; now apply nth_keepcols|].
  split; [now apply select_positions|]. split; [now apply select_positions|].
  split. { rewrite map_length. symmetry. clear -Sz. induction Sz; simpl; congruence. }
  assert (Hrow : forall row, In row (select kr (shown_cells round su sd c)) ->
            length row = length (co_columns c)).
  { intros row H. apply (shown_cells_row round su sd c Hc). unfold select in H.
    apply in_map_iff in H as ([b r] & <- & H). apply filter_In in H as [H _]. now apply in_combine_r in H. }
  split.
  { intros row H. apply in_map_iff in H as (r & <- & H).
    assert (S := select_positions kc r). rewrite Lc, (Hrow r H) in S. specialize (S eq_refl).
    symmetry. clear -S. induction S; simpl; congruence. }
  intros k l i j Hk Hl.
  destruct (Forall2_nth_error _ _ _ k i Sz Hk) as (row & Hrk & Hri).
  assert (S := select_positions kc row). rewrite Lc, (Hrow row (nth_error_In _ _ Hrk)) in S.
  specialize (S eq_refl).
  destruct (Forall2_nth_error _ _ _ l j S Hl) as (x & Hx & Hxj).
  exists x. split.
  - exists (select kc row). split; [|exact Hx]. rewrite nth_error_map, Hrk. reflexivity.
  - apply shown_entry. now exists row.
Qed.
Print Assumptions C63_trimmed.

(** ** Dictionaries *)

Lemma dget_replace {V} (d : dict V) k v k' :
  dget (map (fun kv => if String.eqb k (fst kv) then (k, v) else kv) d) k' =
  if String.eqb k k' then match dget d k with Some _ => Some v | None => None end else dget d k'.
Proof.
  induction d as [|[j w] d IH]; cbn [map dget fst]; [now destruct (String.eqb k k')|].
  destruct (String.eqb_spec k j) as [->|Hkj]; cbn [dget]; rewrite IH.
  - destruct (String.eqb_spec j k') as [->|Hj].
    + now rewrite String.eqb_refl.
    + now rewrite (proj2 (String.eqb_neq k' j)) by congruence.
  - destruct (String.eqb_spec k k') as [E|Hk]; [subst k'|reflexivity].
    now rewrite (proj2 (String.eqb_neq k j)).
Qed.

Lemma dget_app {V} (d d' : dict V) k :
  dget (d ++ d') k = match dget d k with Some v => Some v | None => dget d' k end.
Proof.
  induction d as [|[j w] d IH]; [reflexivity|]. cbn [app dget]. now destruct (String.eqb k j).
Qed.

Lemma dget_dset {V} (d : dict V) k v k' :
  dget (dset d k v) k' = if String.eqb k k' then Some v else dget d k'.
Proof.
  unfold dset. destruct (smem k (dkeys d)) eqn:E.
  - rewrite dget_replace. apply smem_In, dget_Some_key in E as [w ->]. reflexivity.
  - rewrite dget_app. cbn [dget]. apply smem_false in E.
    destruct (String.eqb_spec k k') as [<-|Hk].
    + apply dget_None in E. now rewrite E, String.eqb_refl.
    + rewrite (proj2 (String.eqb_neq k' k)) by congruence. now destruct (dget d k').
Qed.

Lemma dget_dupdate {V} (d d' : dict V) k : NoDup (dkeys d') ->
  dget (dupdate d d') k = match dget d' k with Some v => Some v | None => dget d k end.
Proof.
  unfold dupdate. revert d. induction d' as [|[j w] d' IH]; intros d Hnd; [reflexivity|].
  inversion Hnd as [|? ? Hj Hnd']; subst. cbn [fold_left fst snd dget]. rewrite (IH _ Hnd'), dget_dset.
  destruct (String.eqb_spec k j) as [->|Hk].
  - apply dget_None in Hj. now rewrite Hj, String.eqb_refl.
  - now rewrite (proj2 (String.eqb_neq j k)) by congruence.
Qed.

Lemma dkeys_dset {V} (d : dict V) k v j : In j (dkeys (dset d k v)) <-> j = k \/ In j (dkeys d).
Proof.
  assert (H : forall e : dict V, In j (dkeys e) <-> dget e j <> None).
  { intros e. destruct (dget e j) eqn:E.
    - split; [congruence|]. intros _. apply dget_In in E. unfold dkeys. apply in_map_iff.
      now exists (j, v0).
    - apply dget_None in E. tauto. }
  rewrite !H, dget_dset. destruct (String.eqb_spec k j) as [->|Hk]; [split; [tauto|congruence]|].
  split; [tauto|]. intros [->|Hd]; congruence.
Qed.

Lemma dkeys_dupdate {V} (d d' : dict V) j : In j (dkeys (dupdate d d')) <-> In j (dkeys d) \/ In j (dkeys d').
Proof.
  unfold dupdate. revert d. induction d' as [|[k w] d' IH]; intros d; simpl; [tauto|].
  rewrite IH, dkeys_dset. unfold dkeys. simpl. intuition.
Qed.

Lemma dget_map_user {U} (d : dict U) k :
  dget (map (fun kv => (fst kv, @KUser U (snd kv))) d) k = option_map KUser (dget d k).
Proof.
  induction d as [|[j w] d IH]; [reflexivity|]. cbn [map dget fst snd]. now destruct (String.eqb k j).
Qed.

Lemma dkeys_map_user {U} (d : dict U) : dkeys (map (fun kv => (fst kv, @KUser U (snd kv))) d) = dkeys d.
Proof. unfold dkeys. now rewrite map_map. Qed.

(** ** C78 *)

Lemma In_lower_entries m x :
  In x (lower_entries m) <-> exists i j, j < i /\ entry m i j x.
Proof.
  unfold lower_entries. rewrite in_flat_map. split.
  - intros ([i row] & Hi & Hx). apply In_enumerate in Hi. cbn [fst snd] in Hx.
    apply In_nth_error in Hx as [j Hj].
    assert (Hji : j < i).
    { assert (j < length (firstn i row)) by (apply nth_error_Some; congruence).
      rewrite firstn_length in H. lia. }
    exists i, j. split; [exact Hji|]. exists row. split; [exact Hi|].
    rewrite <- Hj. symmetry. rewrite <- (firstn_skipn i row) at 2. rewrite nth_error_app1; [reflexivity|].
    apply nth_error_Some. congruence.
  - intros (i & j & Hji & row & Hi & Hj). exists (i, row). split; [now apply In_enumerate|]. cbn [fst snd].
    apply (nth_error_In _ j). rewrite <- (firstn_skipn i row) in Hj. rewrite nth_error_app1 in Hj; [exact Hj|].
    rewrite firstn_length. assert (j < length row).
    { apply nth_error_Some. rewrite <- (firstn_skipn i row). congruence. }
    lia.
Qed.

Lemma np_max_some l : l <> [] -> (forall x, In x l -> x <> None) ->
  exists z, np_max l = Ok (Some z) /\ In (Some z) l /\ forall x, In (Some x) l -> (x <= z)%R.
Proof.
  induction l as [|[x|] l IH]; intros Hne H; [congruence| |exfalso; apply (H None); [now left|reflexivity]].
  destruct l as [|y l].
  - exists x. split; [reflexivity|]. split; [now left|]. intros y [[= ->]|[]]. lra.
  - destruct IH as (z & Hz & Hin & Hmax); [congruence|intros w Hw; apply H; now right|].
    change (np_max (Some x :: y :: l)) with
      (do w <- np_max (y :: l);
       Ok (match w with Some w => Some (Rmax x w) | None => None end)).
    rewrite Hz. cbn [rbind]. exists (Rmax x z). split; [reflexivity|]. split.
    + unfold Rmax. destruct (Rle_dec x z); [now right|now left].
    + intros w [[= ->]|Hw]; [apply Rmax_l|]. apply (Rle_trans _ z); [now apply Hmax|apply Rmax_r].
Qed.

Lemma np_max_none l : In None l -> np_max l = Ok None.
Proof.
  induction l as [|x l IH]; intros H; [destruct H|]. destruct l as [|y l].
  - destruct H as [->|[]]. reflexivity.
  - change (np_max (x :: y :: l)) with
      (do w <- np_max (y :: l);
       Ok (match x, w with Some x, Some w => Some (Rmax x w) | _, _ => None end)).
    destruct x as [x|].
    + destruct H as [H|H]; [discriminate|]. now rewrite (IH H).
    + assert (G : exists w, np_max (y :: l) = Ok w).
      { clear. revert y. induction l as [|z l IH]; intros y; [now exists y|].
        destruct (IH z) as [w Hw].
        change (np_max (y :: z :: l)) with
          (do w <- np_max (z :: l);
           Ok (match y, w with Some x, Some w => Some (Rmax x w) | _, _ => None end)).
        rewrite Hw. eexists. reflexivity. }
      destruct G as [w ->]. reflexivity.
Qed.

(** The keyword arguments the user may pass: a dictionary without the arguments that
    go.Heatmap gets anyway. *)
Definition valid_kwargs {U} (a : heatmap_args U) : Prop :=
  NoDup (dkeys (ha_heatmap_kwargs a)) /\ NoDup (dkeys (ha_layout_kwargs a)) /\
  forall k, In k ["z"; "x"; "y"] -> ~ In k (dkeys (ha_heatmap_kwargs a)).

Lemma plot_ok {U} round show c (a : heatmap_args U) zmax :
  valid_kwargs a ->
  let d := process_corr_data round c (ha_show_upper_triangle a) (ha_show_diagonal a) (ha_trim a) in
  match ha_zmax a with
  | Some z => zmax = Some z
  | None => np_max (map (option_map Rabs) (lower_entries (co_cells d))) = Ok zmax
  end ->
  exists fig, plot_correlation_heatmap round show c a = Ok fig /\
    fg_z fig = co_cells d /\ fg_x fig = co_columns d /\ fg_y fig = co_index d /\
    forall k, dget (fg_heatmap fig) k =
      match dget (ha_heatmap_kwargs a) k with
      | Some v => Some (KUser v)
      | None => dget [("colorscale", KUser (ha_colorscale a)); ("showscale", KBool (ha_show_color_bar a));
           ("zmin", KNumber (match ha_zmin a with Some z => Some z | None => option_map Ropp zmax end));
           ("zmax", KNumber zmax);
           ("zmid", KNumber (Some (match ha_zmid a with Some z => z | None => 0%R end)))] k
      end.
Proof.
  intros (Hnd & _ & Hk) d Hz. unfold plot_correlation_heatmap. fold d. unfold get_heatmap_kwargs.
  assert (E : match ha_zmax a with
              | Some z => Ok (Some z)
              | None => np_max (map (option_map Rabs) (lower_entries (co_cells d)))
              end = Ok zmax).
  { destruct (ha_zmax a); [now rewrite Hz|exact Hz]. }
  rewrite E. cbn [rbind]. clear E Hz.
  match goal with |- context [smem "z" (dkeys ?h)] => set (hk := h) end.
  assert (Hkey : forall k, In k ["z"; "x"; "y"] -> smem k (dkeys hk) = false).
  { intros k H. apply smem_false. unfold hk. rewrite dkeys_dupdate, dkeys_map_user. intros [G|G].
    - simpl in H, G. intuition congruence.
    - exact (Hk k H G). }
  rewrite (Hkey "z"), (Hkey "x"), (Hkey "y") by (simpl; tauto). cbn [orb].
  eexists. split; [reflexivity|]. cbn [fg_z fg_x fg_y fg_heatmap].
  split; [reflexivity|]. split; [reflexivity|]. split; [reflexivity|]. intros k.
  unfold hk. rewrite dget_dupdate by (rewrite dkeys_map_user; exact Hnd).
  rewrite dget_map_user. now destruct (dget (ha_heatmap_kwargs a) k).
Qed.

Lemma displays_below su sd round c i j y : j < i -> entry (co_cells c) i j y ->
  displays su sd round c i j (option_map round y).
Proof.
  intros Hji Hy. exists y. split; [exact Hy|]. split; [reflexivity|].
  intros H. exfalso. apply H. now left.
Qed.

Lemma displays_below_inv su sd round c i j x : j < i -> displays su sd round c i j x ->
  exists y, entry (co_cells c) i j y /\ x = option_map round y.
Proof. intros Hji (y & Hy & H & _). exists y. split; [exact Hy|]. apply H. now left. Qed.

(** The default bounds of the color map, if all correlations are known and the heatmap
    is not trimmed: plus and minus the largest absolute correlation. *)
Theorem C78_default_bounds_partial {U} round show c (a : heatmap_args U) :
  valid_kwargs a -> rectangular c -> co_index c = co_columns c ->
  (forall i j x, entry (co_cells c) i j x -> entry (co_cells c) j i x) ->
  2 <= length (co_index c) -> (forall i j, i <> j -> ~ entry (co_cells c) i j None) ->
  ha_trim a = false -> ha_zmax a = None -> ha_zmin a = None ->
  ~ In "zmax" (dkeys (ha_heatmap_kwargs a)) -> ~ In "zmin" (dkeys (ha_heatmap_kwargs a)) ->
  exists fig z, plot_correlation_heatmap round show c a = Ok fig /\
    largest_correlation round c z /\
    dget (fg_heatmap fig) "zmax" = Some (KNumber (Some z)) /\
    dget (fg_heatmap fig) "zmin" = Some (KNumber (Some (- z)%R)).
Proof.
  intros Hv Hc Hsq Hsym Hn Hmiss Ht Hz1 Hz2 Hk1 Hk2.
  set (su := ha_show_upper_triangle a). set (sd := ha_show_diagonal a).
  assert (Hlow : forall x, In x (lower_entries (shown_cells round su sd c)) <->
            exists i j y, j < i /\ entry (co_cells c) i j y /\ x = option_map round y).
  { intros x. rewrite In_lower_entries. split.
    - intros (i & j & Hji & H). apply shown_entry in H. apply displays_below_inv in H as (y & Hy & ->); [|exact Hji].
      now exists i, j, y.
    - intros (i & j & y & Hji & Hy & ->). exists i, j. split; [exact Hji|].
      apply shown_entry. now apply displays_below. }
  assert (Hcell : forall i j, i < length (co_index c) -> j < length (co_index c) ->
            exists y, entry (co_cells c) i j y).
  { intros i j Hi Hj. destruct (nth_error (co_cells c) i) as [row|] eqn:E.
    - destruct (nth_error row j) as [y|] eqn:E2; [exists y; now exists row|].
      apply nth_error_None in E2. apply nth_error_In in E. apply (proj2 Hc) in E. rewrite <- Hsq in E. lia.
    - apply nth_error_None in E. rewrite (proj1 Hc) in E. lia. }
  destruct (np_max_some (map (option_map Rabs) (lower_entries (shown_cells round su sd c))))
    as (z & Hz & Hin & Hmax).
  { destruct (Hcell 1 0) as [y Hy]; [lia|lia|].
    intros E. apply map_eq_nil in E.
    assert (G : In (option_map round y) (lower_entries (shown_cells round su sd c))).
    { apply Hlow. exists 1, 0, y. auto. }
    rewrite E in G. destruct G. }
  { intros x Hx. apply in_map_iff in Hx as (w & <- & Hw). apply Hlow in Hw as (i & j & [y|] & Hji & Hy & ->).
    - discriminate.
    - exfalso. apply (Hmiss i j); [lia|exact Hy]. }
  destruct (plot_ok round show c a (Some z) Hv) as (fig & Hfig & _ & _ & _ & Hd).
  { rewrite Hz1, Ht, process_full. exact Hz. }
  exists fig, z. split; [exact Hfig|]. split; [split|].
  - intros i j x Hij Hx.
    assert (G : exists i j, j < i /\ entry (co_cells c) i j (Some x)).
    { destruct (Nat.lt_ge_cases j i) as [H|H]; [now exists i, j|].
      exists j, i. split; [lia|]. now apply Hsym. }
    destruct G as (i' & j' & Hji & Hx'). apply Hmax. apply in_map_iff. exists (Some (round x)).
    split; [reflexivity|]. apply Hlow. exists i', j', (Some x). auto.
  - apply in_map_iff in Hin as ([w|] & [= Ew] & Hw). apply Hlow in Hw as (i & j & [y|] & Hji & Hy & [= ->]).
    exists i, j, y. split; [lia|]. split; [exact Hy|exact Ew].
  - rewrite !Hd, Hz2. apply dget_None in Hk1, Hk2. rewrite Hk1, Hk2. split; reflexivity.
Qed.
Print Assumptions C78_default_bounds_partial.

(** One unknown correlation below the diagonal makes the default bounds NaN. *)
Theorem C78_missing_value {U} round show c (a : heatmap_args U) i j :
  valid_kwargs a -> j < i -> entry (co_cells c) i j None ->
  ha_trim a = false -> ha_zmax a = None -> ha_zmin a = None ->
  ~ In "zmax" (dkeys (ha_heatmap_kwargs a)) -> ~ In "zmin" (dkeys (ha_heatmap_kwargs a)) ->
  exists fig, plot_correlation_heatmap round show c a = Ok fig /\
    dget (fg_heatmap fig) "zmax" = Some (KNumber None) /\
    dget (fg_heatmap fig) "zmin" = Some (KNumber None).
Proof.
  intros Hv Hji Hx Ht Hz1 Hz2 Hk1 Hk2.
  destruct (plot_ok round show c a None Hv) as (fig & Hfig & _ & _ & _ & Hd).
  { rewrite Hz1, Ht, process_full. apply np_max_none. apply in_map_iff. exists None. split; [reflexivity|].
    apply In_lower_entries. exists i, j. split; [exact Hji|]. apply shown_entry.
    now apply (displays_below _ _ round c i j None). }
  exists fig. split; [exact Hfig|]. rewrite !Hd, Hz2. apply dget_None in Hk1, Hk2. rewrite Hk1, Hk2.
  split; reflexivity.
Qed.
Print Assumptions C78_missing_value.

(** A matrix with fewer than two rows cannot be plotted with the default bounds. *)
Theorem C78_single_variable {U} round show c (a : heatmap_args U) :
  rectangular c -> length (co_index c) <= 1 -> ha_zmax a = None -> ha_trim a = false ->
  plot_correlation_heatmap round show c a = Err ValueError.
Proof.
  intros Hc Hn Hz Ht. unfold plot_correlation_heatmap. rewrite Ht, process_full.
  unfold get_heatmap_kwargs. rewrite Hz. cbn [co_cells].
  assert (E : lower_entries (shown_cells round (ha_show_upper_triangle a) (ha_show_diagonal a) c) = []).
  { destruct (lower_entries _) as [|x l] eqn:E; [reflexivity|]. exfalso.
    assert (Hx : In x (lower_entries (shown_cells round (ha_show_upper_triangle a) (ha_show_diagonal a) c)))
      by (rewrite E; now left).
    apply In_lower_entries in Hx as (i & j & Hji & row & Hi & _).
    assert (i < length (shown_cells round (ha_show_upper_triangle a) (ha_show_diagonal a) c))
      by (apply nth_error_Some; congruence).
    rewrite (shown_cells_length _ _ _ _ Hc) in H. lia. }
  rewrite E. reflexivity.
Qed.
Print Assumptions C78_single_variable.

(** Neither can the lower triangle of the correlation matrix of two variables, if it is
    trimmed. *)
Theorem C78_two_variables_trimmed {U} (round : R -> R) show (x y : string) r (a : heatmap_args U) :
  ha_zmax a = None -> ha_trim a = true -> ha_show_diagonal a = false -> ha_show_upper_triangle a = false ->
  plot_correlation_heatmap round show
    (mk_corr [x; y] [x; y] [[Some 1%R; Some r]; [Some r; Some 1%R]]) a = Err ValueError.
Proof.
  intros Hz Ht Hd Hu. unfold plot_correlation_heatmap. rewrite Ht, Hd, Hu.
  unfold get_heatmap_kwargs. rewrite Hz. reflexivity.
Qed.
Print Assumptions C78_two_variables_trimmed.

Definition plain_args (diagonal upper trim annotate : bool) : heatmap_args nat :=
  mk_args [] [] None None None 0 true diagonal upper trim annotate 13 0 0 (mk_axes 12 12) (mk_axes 90 0)
          (mk_axes 0 0).

Definition three : corr_df :=
  mk_corr ["a"; "b"; "c"] ["a"; "b"; "c"]
    [[Some 1; Some 0.9; Some 0.1]; [Some 0.9; Some 1; Some 0.8]; [Some 0.1; Some 0.8; Some 1]]%R.

(** If the heatmap is trimmed, correlations that are shown can be outside the bounds. *)
Theorem C78_default_bounds_refuted :
  exists c (a : heatmap_args nat) fig z i j x,
    ha_zmax a = None /\ ha_trim a = true /\ ha_heatmap_kwargs a = [] /\
    plot_correlation_heatmap (fun x => x) (fun _ => "") c a = Ok fig /\
    dget (fg_heatmap fig) "zmax" = Some (KNumber (Some z)) /\
    entry (fg_z fig) i j (Some x) /\ (z < x)%R /\
    entry (co_cells c) 1 0 (Some x).
Proof.
  exists three, (plain_args false false true false).
  eexists. exists (Rabs 0.1), 0, 0, 0.9%R.
  split; [reflexivity|]. split; [reflexivity|]. split; [reflexivity|]. split; [reflexivity|].
  split; [reflexivity|]. split; [eexists; split; reflexivity|]. split.
  - rewrite Rabs_right; lra.
  - eexists. split; reflexivity.
Qed.
Print Assumptions C78_default_bounds_refuted.

Lemma plain_valid d u t n : valid_kwargs (plain_args d u t n).
Proof. repeat split; [constructor|constructor|]. intros k _ []. Qed.

Lemma three_rectangular : rectangular three.
Proof. split; [reflexivity|]. intros row [<-|[<-|[<-|[]]]]; reflexivity. Qed.

Lemma three_entry i j x : entry (co_cells three) i j x -> i < 3 /\ j < 3.
Proof.
  intros (row & Hi & Hj).
  assert (Hi3 : i < length (co_cells three)) by (apply nth_error_Some; congruence).
  assert (Hj3 : j < length row) by (apply nth_error_Some; congruence).
  apply nth_error_In in Hi. rewrite (proj2 three_rectangular row Hi) in Hj3. split; assumption.
Qed.

Example C63_nonvacuous :
  rectangular three /\
  (exists fig, plot_correlation_heatmap (fun x => x) (fun _ => "") three (plain_args true false false true) = Ok fig) /\
  (exists fig, plot_correlation_heatmap (fun x => x) (fun _ => "") three (plain_args false false true true) = Ok fig /\
     fg_y fig = ["b"; "c"] /\ fg_x fig = ["a"; "b"]).
Proof.
  split; [exact three_rectangular|]. split; [eexists; reflexivity|]. eexists. split; [reflexivity|].
  split; reflexivity.
Qed.

Example C78_nonvacuous :
  exists fig z, plot_correlation_heatmap (fun x => x) (fun _ => "") three (plain_args true true false true) = Ok fig /\
    largest_correlation (fun x => x) three z /\
    dget (fg_heatmap fig) "zmax" = Some (KNumber (Some z)) /\
    dget (fg_heatmap fig) "zmin" = Some (KNumber (Some (- z)%R)).
Proof.
  apply C78_default_bounds_partial.
  - apply plain_valid.
  - exact three_rectangular.
  - reflexivity.
  - intros i j x H. assert (Hij := three_entry i j x H). destruct Hij as [Hi Hj].
    destruct H as (row & H1 & H2).
    destruct i as [|[|[|i]]]; [| | |lia]; injection H1 as <-;
      (destruct j as [|[|[|j]]]; [| | |lia]); injection H2 as <-; eexists; split; reflexivity.
  - simpl. lia.
  - intros i j _ H. assert (Hij := three_entry i j None H). destruct Hij as [Hi Hj].
    destruct H as (row & H1 & H2).
    destruct i as [|[|[|i]]]; [| | |lia]; injection H1 as <-;
      (destruct j as [|[|[|j]]]; [| | |lia]); discriminate.
  - reflexivity.
  - reflexivity.
  - reflexivity.
  - intros [].
  - intros [].
Qed.

(** ** C79 *)

Lemma NoDup_select {A} keep (l : list A) : NoDup l -> NoDup (select keep l).
Proof.
  unfold select. revert keep. induction l as [|x l IH]; intros [|b keep] H; try constructor.
  inversion H as [|? ? Hx Hl]; subst. cbn [combine filter]. destruct b; cbn [map fst snd]; [|now apply IH].
  constructor; [|now apply IH]. intros Hin. apply Hx. apply in_map_iff in Hin as ([b y] & <- & Hin).
  apply filter_In in Hin as [Hin _]. now apply in_combine_r in Hin.
Qed.

Lemma select_length {A B} keep (l : list A) (l' : list B) : length keep = length l -> length keep = length l' ->
  length (select keep l) = length (select keep l').
Proof.
  intros H H'. assert (S := select_positions keep l H). assert (S' := select_positions keep l' H').
  transitivity (length (positions keep)).
  - symmetry. clear -S. induction S; simpl; congruence.
  - clear -S'. induction S'; simpl; congruence.
Qed.

Lemma process_unique round c su sd trim : rectangular c -> NoDup (co_index c) -> NoDup (co_columns c) ->
  let d := process_corr_data round c su sd trim in
  rectangular d /\ NoDup (co_index d) /\ NoDup (co_columns d).
Proof.
  intros Hc Hi Hj. destruct trim; cbv zeta.
  - rewrite process_trim. cbn [co_index co_columns].
    split; [|split; now apply NoDup_select].
    assert (Lr := keeprows_length round su sd c Hc). assert (Lc := keepcols_length round su sd c).
    split; cbn [co_cells co_index co_columns].
    + rewrite map_length. apply select_length; [|exact Lr]. rewrite Lr. symmetry. now apply shown_cells_length.
    + intros row H. apply in_map_iff in H as (r & <- & H). apply select_length; [|exact Lc].
      rewrite Lc. symmetry. apply (shown_cells_row round su sd c Hc). unfold select in H.
      apply in_map_iff in H as ([b q] & <- & H). apply filter_In in H as [H _]. now apply in_combine_r in H.
  - rewrite process_full. cbn [co_index co_columns]. split; [|split; assumption].
    split; [exact (shown_cells_length round su sd c Hc)|exact (shown_cells_row round su sd c Hc)].
Qed.

Lemma pick_unique {A B} (f : A -> list B) k (ks : list string) vs i v :
  NoDup ks -> nth_error ks i = Some k -> nth_error vs i = Some v ->
  flat_map (fun kv => if String.eqb k (fst kv) then f (snd kv) else []) (combine ks vs) = f v.
Proof.
  revert vs i. induction ks as [|k0 ks IH]; intros [|v0 vs] [|i] Hnd Hk Hv; try discriminate.
  - injection Hk as ->. injection Hv as ->. cbn [combine flat_map fst snd]. rewrite String.eqb_refl.
    inversion Hnd as [|? ? Hin _]; subst.
    assert (E : flat_map (fun kv => if String.eqb k (fst kv) then f (snd kv) else []) (combine ks vs) = []).
    { clear -Hin. revert vs. induction ks as [|k1 ks IH]; intros [|v1 vs]; try reflexivity.
      cbn [combine flat_map fst]. rewrite (proj2 (String.eqb_neq k k1)).
      - apply IH. intros H. apply Hin. now right.
      - intros ->. apply Hin. now left. }
    rewrite E. apply app_nil_r.
  - cbn [combine flat_map fst snd]. inversion Hnd as [|? ? Hin Hnd']; subst.
    rewrite (proj2 (String.eqb_neq k k0)).
    + now apply (IH vs i).
    + intros ->. apply Hin. exact (nth_error_In ks i Hk).
Qed.

Lemma loc_cells_unique d i j m n x : rectangular d -> NoDup (co_index d) -> NoDup (co_columns d) ->
  nth_error (co_index d) i = Some m -> nth_error (co_columns d) j = Some n -> entry (co_cells d) i j x ->
  loc_cells d m n = [x].
Proof.
  intros Hd Hni Hnj Hm Hn (row & Hrow & Hx). unfold loc_cells.
  rewrite (pick_unique (fun row => map snd (filter (fun jx : string * option R => String.eqb n (fst jx))
             (combine (co_columns d) row))) m _ _ i row Hni Hm Hrow).
  transitivity (flat_map (fun kv : string * option R => if String.eqb n (fst kv) then [snd kv] else [])
                         (combine (co_columns d) row)).
  - generalize (combine (co_columns d) row). intros l. induction l as [|[k y] l IH]; [reflexivity|].
    cbn [filter flat_map fst snd]. destruct (String.eqb n k); simpl; now rewrite IH.
  - exact (pick_unique (fun y => [y]) n _ _ j x Hnj Hn Hx).
Qed.

(** Text of a cell: nothing if the correlation is missing. *)
Definition text_of (show : R -> string) (x : option R) : string :=
  match x with Some r => show r | None => "" end.

Lemma length_product {A B C} (f : A -> B -> C) l l' :
  length (flat_map (fun x => map (f x) l') l) = length l * length l'.
Proof. induction l as [|x l IH]; simpl; [reflexivity|]. rewrite app_length, map_length, IH. reflexivity. Qed.

Lemma layout_get {U} show c (a : heatmap_args U) k : valid_kwargs a ->
  dget (get_layout_kwargs show c a) k =
  match dget (ha_layout_kwargs a) k with
  | Some v => Some (KUser v)
  | None => match dget (get_axes_ticks_kwargs U a) k with
            | Some v => Some v
            | None => match dget (get_annotations show c a) k with
                      | Some v => Some v
                      | None => dget [("xaxis_showgrid", KBool false); ("yaxis_showgrid", KBool false);
                                      ("template", KText "simple_white"); ("yaxis_autorange", KText "reversed")] k
                      end
            end
  end.
Proof.
  intros (_ & Hnd & _). unfold get_layout_kwargs.
  rewrite dget_dupdate by (rewrite dkeys_map_user; exact Hnd). rewrite dget_map_user.
  destruct (dget (ha_layout_kwargs a) k); [reflexivity|]. cbn [option_map].
  rewrite dget_dupdate by (simpl; repeat constructor; simpl; intuition discriminate).
  destruct (dget (get_axes_ticks_kwargs U a) k); [reflexivity|].
  rewrite dget_dupdate; [reflexivity|]. unfold get_annotations. destruct (ha_annotate a); repeat constructor.
  intros [].
Qed.

(** If the labels are unique, each cell of the figure is annotated with its value. *)
Theorem C79_annotations_partial {U} round show c (a : heatmap_args U) fig :
  valid_kwargs a -> rectangular c -> NoDup (co_index c) -> NoDup (co_columns c) ->
  ha_annotate a = true -> ~ In "annotations" (dkeys (ha_layout_kwargs a)) ->
  plot_correlation_heatmap round show c a = Ok fig ->
  exists l, dget (fg_layout fig) "annotations" = Some (KAnnotations l) /\
    length l = length (fg_x fig) * length (fg_y fig) /\
    forall an, In an l <->
      exists i j x m n, entry (fg_z fig) i j x /\ nth_error (fg_y fig) i = Some m /\
        nth_error (fg_x fig) j = Some n /\
        an = mk_annotation (Some (text_of show x)) n m (ha_color a) (ha_fontsize a) (ha_angle a).
Proof.
  intros Hv Hc Hni Hnj Ha Hk Hf. apply plot_figure in Hf. cbv zeta in Hf.
  set (d := process_corr_data round c (ha_show_upper_triangle a) (ha_show_diagonal a) (ha_trim a)) in *.
  destruct (process_unique round c (ha_show_upper_triangle a) (ha_show_diagonal a) (ha_trim a) Hc Hni Hnj)
    as (Hd & Hdi & Hdj). fold d in Hd, Hdi, Hdj.
  destruct Hf as (-> & -> & -> & _ & ->).
  rewrite (layout_get show d a _ Hv). apply dget_None in Hk. rewrite Hk. cbn [get_axes_ticks_kwargs dget String.eqb].
  unfold get_annotations. rewrite Ha. cbn [dget]. rewrite String.eqb_refl.
  change (String.eqb "annotations" "xaxis") with false. change (String.eqb "annotations" "yaxis") with false.
  cbn iota. eexists. split; [reflexivity|]. split; [now rewrite length_product, !rev_length|].
  intros an. rewrite in_flat_map. split.
  - intros (n & Hn & Han). apply in_map_iff in Han as (m & <- & Hm). apply in_rev in Hn, Hm.
    apply In_nth_error in Hn as [j Hj], Hm as [i Hi].
    assert (G : exists x, entry (co_cells d) i j x).
    { destruct (nth_error (co_cells d) i) as [row|] eqn:E.
      - destruct (nth_error row j) as [x|] eqn:E2; [exists x; now exists row|].
        apply nth_error_None in E2. apply nth_error_In in E. apply (proj2 Hd) in E.
        assert (j < length (co_columns d)) by (apply nth_error_Some; congruence). lia.
      - apply nth_error_None in E. rewrite (proj1 Hd) in E.
        assert (i < length (co_index d)) by (apply nth_error_Some; congruence). lia. }
    destruct G as [x Hx]. exists i, j, x, m, n. repeat split; auto.
    rewrite (loc_cells_unique d i j m n x Hd Hdi Hdj Hi Hj Hx). now destruct x.
  - intros (i & j & x & m & n & Hx & Hm & Hn & ->). exists n. split.
    + apply -> in_rev. now apply nth_error_In in Hn.
    + apply in_map_iff. exists m. split; [|apply -> in_rev; now apply nth_error_In in Hm].
      rewrite (loc_cells_unique d i j m n x Hd Hdi Hdj Hm Hn Hx). now destruct x.
Qed.
Print Assumptions C79_annotations_partial.

(** ** C80 *)

(** Keyword arguments of the user take precedence. The others have the values of the
    individual arguments. *)
Theorem C80_user_arguments {U} round show c (a : heatmap_args U) fig :
  valid_kwargs a -> plot_correlation_heatmap round show c a = Ok fig ->
  (forall k v, In (k, v) (ha_heatmap_kwargs a) -> dget (fg_heatmap fig) k = Some (KUser v)) /\
  (forall k v, In (k, v) (ha_layout_kwargs a) -> dget (fg_layout fig) k = Some (KUser v)) /\
  (~ In "zmax" (dkeys (ha_heatmap_kwargs a)) -> forall z, ha_zmax a = Some z ->
     dget (fg_heatmap fig) "zmax" = Some (KNumber (Some z))) /\
  (~ In "zmin" (dkeys (ha_heatmap_kwargs a)) -> forall z, ha_zmin a = Some z ->
     dget (fg_heatmap fig) "zmin" = Some (KNumber (Some z))) /\
  (~ In "zmin" (dkeys (ha_heatmap_kwargs a)) -> forall z, ha_zmin a = None -> ha_zmax a = Some z ->
     dget (fg_heatmap fig) "zmin" = Some (KNumber (Some (- z)%R))) /\
  (~ In "zmid" (dkeys (ha_heatmap_kwargs a)) ->
     dget (fg_heatmap fig) "zmid" =
       Some (KNumber (Some (match ha_zmid a with Some z => z | None => 0%R end)))) /\
  (~ In "colorscale" (dkeys (ha_heatmap_kwargs a)) ->
     dget (fg_heatmap fig) "colorscale" = Some (KUser (ha_colorscale a))) /\
  (~ In "showscale" (dkeys (ha_heatmap_kwargs a)) ->
     dget (fg_heatmap fig) "showscale" = Some (KBool (ha_show_color_bar a))) /\
  (~ In "xaxis" (dkeys (ha_layout_kwargs a)) ->
     dget (fg_layout fig) "xaxis" =
       Some (KAxis (ax_x (ha_tick_angle a)) (ax_x (ha_tick_color a)) (ax_x (ha_tick_fontsize a)))) /\
  (~ In "yaxis" (dkeys (ha_layout_kwargs a)) ->
     dget (fg_layout fig) "yaxis" =
       Some (KAxis (ax_y (ha_tick_angle a)) (ax_y (ha_tick_color a)) (ax_y (ha_tick_fontsize a)))) /\
  (~ In "annotations" (dkeys (ha_layout_kwargs a)) -> ha_annotate a = false ->
     dget (fg_layout fig) "annotations" = None).
Proof.
  intros Hv Hf. assert (Hf' := plot_figure round show c a fig Hf). cbv zeta in Hf'.
  set (d := process_corr_data round c (ha_show_upper_triangle a) (ha_show_diagonal a) (ha_trim a)) in *.
  destruct Hf' as (_ & _ & _ & Hh & Hl).
  unfold get_heatmap_kwargs in Hh. apply rbind_ok in Hh as (zmax & Hz & Hh). injection Hh as Hh.
  assert (Hd : match ha_zmax a with
               | Some z => zmax = Some z
               | None => np_max (map (option_map Rabs) (lower_entries (co_cells d))) = Ok zmax
               end).
  { destruct (ha_zmax a); [now injection Hz as <-|exact Hz]. }
  destruct (plot_ok round show c a zmax Hv Hd) as (fig' & Hf' & _ & _ & _ & Hget).
  rewrite Hf in Hf'. injection Hf' as <-.
  assert (Hget' : forall k, ~ In k (dkeys (ha_heatmap_kwargs a)) -> dget (ha_heatmap_kwargs a) k = None)
    by (intros k Hk; now apply dget_None).
  assert (Hlay : forall k, ~ In k (dkeys (ha_layout_kwargs a)) -> dget (ha_layout_kwargs a) k = None)
    by (intros k Hk; now apply dget_None).
  repeat split.
  - intros k v Hkv. rewrite Hget, (In_dget _ _ _ (proj1 Hv) Hkv). reflexivity.
  - intros k v Hkv. rewrite Hl, layout_get, (In_dget _ _ _ (proj1 (proj2 Hv)) Hkv) by exact Hv. reflexivity.
  - intros Hk z Ez. rewrite Ez in Hd. subst zmax. now rewrite Hget, Hget'.
  - intros Hk z Ez. rewrite Hget, Hget', Ez by exact Hk. reflexivity.
  - intros Hk z Ez Ez'. rewrite Ez' in Hd. subst zmax. rewrite Hget, Hget', Ez by exact Hk. reflexivity.
  - intros Hk. now rewrite Hget, Hget'.
  - intros Hk. now rewrite Hget, Hget'.
  - intros Hk. now rewrite Hget, Hget'.
  - intros Hk. rewrite Hl, layout_get, Hlay by (exact Hv || exact Hk). reflexivity.
  - intros Hk. rewrite Hl, layout_get, Hlay by (exact Hv || exact Hk). reflexivity.
  - intros Hk Ha. rewrite Hl, layout_get, Hlay by (exact Hv || exact Hk). unfold get_annotations. rewrite Ha.
    reflexivity.
Qed.
Print Assumptions C80_user_arguments.

Example C79_nonvacuous :
  valid_kwargs (plain_args false false true true) /\ NoDup (co_index three) /\ NoDup (co_columns three) /\
  exists fig, plot_correlation_heatmap (fun x => x) (fun _ => "") three (plain_args false false true true) = Ok fig.
Proof.
  split; [apply plain_valid|].
  split; [repeat constructor; simpl; intuition discriminate|].
  split; [repeat constructor; simpl; intuition discriminate|]. eexists. reflexivity.
Qed.

Example C80_nonvacuous :
  let a := mk_args [("zmax", 7); ("opacity", 1)] [("xaxis", 3); ("title", 4)] (Some 1%R) None None 0 true true true
             false true 13 0 0 (mk_axes 12 12) (mk_axes 90 0) (mk_axes 0 0) in
  valid_kwargs a /\
  exists fig, plot_correlation_heatmap (fun x => x) (fun _ => "") three a = Ok fig.
Proof.
  split; [|eexists; reflexivity]. split; [repeat constructor; simpl; intuition discriminate|].
  split; [repeat constructor; simpl; intuition discriminate|].
  intros k Hk. simpl in *. intuition (subst; discriminate).
Qed.

(** *** Labels that are not unique *)

(** A measurement of two factors. *)
Definition shared_model : model_dict :=
  mk_md
    [("f", mk_factor [["s"]; ["s"]] (TStr "linear") None);
     ("g", mk_factor [["s"]; ["s"]] (TStr "linear") None)]
    None None None None
    (Some (mk_opts (Some 1) None None None None None None None)).
Definition shared_p : processed := get_ok (process_model shared_model) small_p.

Definition shared_df : frame R :=
  mk_frame ["s"] [1; 2]%Z [0; 1]%Z
    [mk_drow 1 0 (rcells [("s", 1)]%R); mk_drow 2 0 (rcells [("s", 2)]%R)].

Lemma shared_setting : heatmap_setting shared_model shared_p 2 shared_df [1; 2]%Z [0; 1]%Z.
Proof.
  split; [split; [repeat constructor; simpl; intuition discriminate|]; intros a o H; discriminate|].
  split; [vm_compute; reflexivity|]. split.
  { split; [eexists _, _; split; [left; reflexivity|reflexivity]|].
    intros f fs [[= <- <-]|[[= <- <-]|[]]]; simpl; lia. }
  split; [|split; [|split; [|split]]].
  - intros k f g v _ (_ & o & (a & outs & H & _) & _). discriminate.
  - intros r Hr. repeat (destruct Hr as [<-|Hr]; [simpl; tauto|]). destruct Hr.
  - repeat constructor; simpl; intuition discriminate.
  - split; [repeat constructor|]. intros z. split.
    + intros [<-|[<-|[]]].
      * eexists. split; [left; reflexivity|reflexivity].
      * eexists. split; [right; left; reflexivity|reflexivity].
    + intros (r & Hr & <-). repeat (destruct Hr as [<-|Hr]; [simpl; tauto|]). destruct Hr.
  - split; [repeat constructor|]. intros z. reflexivity.
Qed.

(** The matrix of correlations of measurements then has labels that occur twice, and
    its heatmap has annotations that are not the text of a cell. *)
Theorem C79_annotations_refuted round show :
  exists c fig l,
    get_measurements_corr shared_df shared_model AllFactors (OnePeriod 0) = Ok c /\
    plot_correlation_heatmap round show c (plain_args true true false true) = Ok fig /\
    dget (fg_layout fig) "annotations" = Some (KAnnotations l) /\
    l <> [] /\ forall an, In an l -> an_text an = None.
Proof.
  destruct (C72_measurement_correlations shared_model shared_p 2 shared_df [1; 2]%Z [0; 1]%Z AllFactors
              ["f"; "g"] [] (OnePeriod 0) [0]) as (c & Hc & H).
  - exact shared_setting.
  - exact (select_all shared_model).
  - reflexivity.
  - repeat constructor; simpl; intuition discriminate.
  - discriminate.
  - intros t [<-|[]]. exists "s". vm_compute. tauto.
  - intros v t Hv. simpl. vm_compute in Hv. intuition congruence.
  - exists c. destruct c as [ix co ce]. destruct H as (H1 & H2 & _ & H4 & H5 & _). cbn [co_index co_columns co_cells] in *.
    assert (E1 : ix = ["s"; "s"]) by (rewrite H1; vm_compute; reflexivity).
    assert (E2 : co = ["s"; "s"]) by (rewrite H2; vm_compute; reflexivity).
    clear H1 H2. subst ix co.
    change (length (map (fun vt : string * nat => data_variable shared_df [0; 1]%Z (fst vt) (snd vt))
              (shown_measurements shared_model 2 ["f"; "g"] [] [0]))) with 2 in H4, H5.
    destruct ce as [|r1 [|r2 [|r3 ce]]]; try discriminate.
    assert (L1 := H5 r1 (or_introl eq_refl)). assert (L2 := H5 r2 (or_intror (or_introl eq_refl))).
    destruct r1 as [|x1 [|x2 [|x3 r1]]]; try discriminate.
    destruct r2 as [|y1 [|y2 [|y3 r2]]]; try discriminate.
    eexists _, _. split; [exact Hc|]. split; [reflexivity|]. split; [reflexivity|]. split; [discriminate|].
    intros an Han. simpl in Han. repeat (destruct Han as [<-|Han]; [simpl; now destruct (option_map round x1)|]). destruct Han.
Qed.
Print Assumptions C79_annotations_refuted.
