(** The correlations do not depend on the units of the data. *)
Require Import Reals String Arith ZArith Bool List Lia Lra.
From Verif Require Import PyBase ModelSpec ProcessModel CheckModel SpecModel SpecParse ParamsIndex
  ParseParams ParamsVec ProcessData SpecData SpecTransition ListFacts Heatmap SpecHeatmap HeatmapFacts.
Import ListNotations.
Open Scope string_scope.
Open Scope list_scope.
Open Scope nat_scope.

(** ** Results that are related *)

Definition res_rel {A B} (P : A -> B -> Prop) (x : result A) (y : result B) : Prop :=
  match x, y with
  | Ok a, Ok b => P a b
  | Err e, Err e' => e = e'
  | _, _ => False
  end.

Lemma rbind_rel {A B C D} (P : A -> B -> Prop) (Q : C -> D -> Prop) x y f g :
  res_rel P x y -> (forall a b, P a b -> res_rel Q (f a) (g b)) -> res_rel Q (rbind x f) (rbind y g).
Proof. destruct x, y; simpl; auto; intros []. Qed.

Lemma mapM_rel {A B C} (Q : B -> C -> Prop) (f : A -> result B) (g : A -> result C) l :
  (forall x, In x l -> res_rel Q (f x) (g x)) -> res_rel (Forall2 Q) (mapM f l) (mapM g l).
Proof.
  induction l as [|x l IH]; intros H; [constructor|]. cbn [mapM].
  apply (rbind_rel Q); [apply H; now left|]. intros a b Hab.
  apply (rbind_rel (Forall2 Q)); [apply IH; intros y Hy; apply H; now right|].
  intros c d Hcd. now constructor.
Qed.

Lemma mapM_rel2 {A A' B C} (P : A -> A' -> Prop) (Q : B -> C -> Prop) (f : A -> result B)
    (g : A' -> result C) l l' :
  Forall2 P l l' -> (forall x y, P x y -> res_rel Q (f x) (g y)) ->
  res_rel (Forall2 Q) (mapM f l) (mapM g l').
Proof.
  intros H Hfg. induction H as [|x y l l' Hxy _ IH]; [constructor|]. cbn [mapM].
  apply (rbind_rel Q); [now apply Hfg|]. intros a b Hab.
  apply (rbind_rel (Forall2 Q)); [exact IH|]. intros c d Hcd. now constructor.
Qed.

Lemma res_rel_eq {A} (x y : result A) : res_rel eq x y -> x = y.
Proof. destruct x, y; simpl; congruence || intros []. Qed.

(** ** Rows *)

Section Rows.
  Variable g : string -> option R -> option R.
  Hypothesis g_none : forall c, g c None = None.

  Definition drel (r r' : drow R) : Prop :=
    dr_id r' = dr_id r /\ dr_period r' = dr_period r /\ forall c, dr_cells r' c = g c (dr_cells r c).
  Definition prel (r r' : prow R) : Prop :=
    pr_id r' = pr_id r /\ pr_period r' = pr_period r /\ forall c, pr_cells r' c = g c (pr_cells r c).

  Lemma insert_rel r r' l l' : drel r r' -> Forall2 drel l l' ->
    Forall2 drel (insert_row r l) (insert_row r' l').
  Proof.
    intros Hr H. induction H as [|x y l l' Hxy H IH]; simpl; [constructor; [exact Hr|apply Forall2_nil]|].
    assert (E : row_leb r' y = row_leb r x).
    { destruct Hr as (E1 & E2 & _), Hxy as (E3 & E4 & _). unfold row_leb. now rewrite E1, E2, E3, E4. }
    rewrite E. destruct (row_leb r x); [|constructor; [exact Hxy|exact IH]].
    constructor; [exact Hr|]. now constructor.
  Qed.

  Lemma sort_rel l l' : Forall2 drel l l' -> Forall2 drel (sort_rows l) (sort_rows l').
  Proof. intros H. induction H; simpl; [constructor|]. now apply insert_rel. Qed.

  Lemma existsb_key_rel i t l l' : Forall2 prel l l' ->
    existsb (pkey_eqb i t) l' = existsb (pkey_eqb i t) l.
  Proof.
    intros H. induction H as [|x y l l' (E1 & E2 & _) _ IH]; [reflexivity|].
    cbn [existsb]. rewrite IH. unfold pkey_eqb. now rewrite E1, E2.
  Qed.

  Lemma has_dup_rel l l' : Forall2 prel l l' -> has_dup_key l' = has_dup_key l.
  Proof.
    intros H. induction H as [|x y l l' Hxy H IH]; [reflexivity|].
    cbn [has_dup_key]. rewrite IH. destruct Hxy as (E1 & E2 & _).
    now rewrite E1, E2, (existsb_key_rel _ _ _ _ H).
  Qed.

  Lemma find_rel i t l l' : Forall2 prel l l' ->
    match find (pkey_eqb i t) l, find (pkey_eqb i t) l' with
    | Some r, Some r' => prel r r'
    | None, None => True
    | _, _ => False
    end.
  Proof.
    intros H. induction H as [|x y l l' Hxy H IH]; [exact I|]. cbn [find].
    assert (E : pkey_eqb i t y = pkey_eqb i t x).
    { destruct Hxy as (E1 & E2 & _). unfold pkey_eqb. now rewrite E1, E2. }
    rewrite E. destruct (pkey_eqb i t x); [exact Hxy|exact IH].
  Qed.

  Lemma Forall2_flat_map {A B C} (P : B -> C -> Prop) (f : A -> list B) (h : A -> list C) l :
    (forall x, Forall2 P (f x) (h x)) -> Forall2 P (flat_map f l) (flat_map h l).
  Proof. intros H. induction l; simpl; [constructor|]. apply Forall2_app; auto. Qed.

  Lemma Forall2_maps {A B C} (P : B -> C -> Prop) (f : A -> B) (h : A -> C) l :
    (forall x, P (f x) (h x)) -> Forall2 P (map f l) (map h l).
  Proof. intros H. induction l; simpl; constructor; auto. Qed.

  Lemma pre_process_rel df df' ts :
    fr_id_level df' = fr_id_level df -> fr_period_level df' = fr_period_level df ->
    Forall2 drel (fr_rows df) (fr_rows df') ->
    res_rel (Forall2 prel) (pre_process_data df ts) (pre_process_data df' ts).
  Proof.
    intros Hi Hp Hrows. unfold pre_process_data.
    assert (He : Forall2 prel (encode df) (encode df')).
    { unfold encode. rewrite Hi, Hp. apply sort_rel in Hrows.
      induction Hrows as [|r r' l l' (E1 & E2 & E3) _ IH]; simpl; constructor; [|exact IH].
      unfold prel. simpl. now rewrite E1, E2. }
    assert (Hid : map pr_id (encode df') = map pr_id (encode df)).
    { induction He as [|r r' l l' (E1 & _) _ IH]; simpl; congruence. }
    rewrite Hid. unfold reindex. rewrite (has_dup_rel _ _ He).
    destruct (has_dup_key (encode df)); [reflexivity|]. simpl.
    apply Forall2_flat_map. intros i. apply Forall2_maps. intros t.
    assert (H := find_rel i t _ _ He).
    destruct (find (pkey_eqb i t) (encode df)), (find (pkey_eqb i t) (encode df')); try destruct H;
      unfold prel; simpl; auto.
  Qed.

  Lemma in_period_rel t rows rows' : Forall2 prel rows rows' ->
    Forall2 prel (in_period t rows) (in_period t rows').
  Proof.
    intros H. unfold in_period. induction H as [|r r' l l' Hr H IH]; simpl; [constructor|].
    assert (E : pr_period r' = pr_period r) by apply Hr. rewrite E.
    destruct (pr_period r =? t); [constructor|]; auto.
  Qed.

  Lemma column_rel c rows rows' : Forall2 prel rows rows' ->
    column c rows' = map (g c) (column c rows).
  Proof.
    intros H. induction H as [|r r' l l' (_ & _ & E) _ IH]; simpl; [reflexivity|].
    now rewrite E, IH.
  Qed.
End Rows.

(** ** Statistics *)

Definition affine (a b : R) : list (option R) -> list (option R) :=
  map (option_map (fun x => a * x + b)%R).

Lemma dropna_affine a b l : dropna (affine a b l) = map (fun x => a * x + b)%R (dropna l).
Proof. induction l as [|[x|] l IH]; simpl; [reflexivity| |exact IH]. now rewrite IH. Qed.

Lemma sum_affine a b l :
  sum_of (map (fun x => a * x + b)%R l) (fun x => x) = (a * sum_of l (fun x => x) + INR (length l) * b)%R.
Proof.
  rewrite sum_of_map.
  rewrite (sum_of_plus (fun x => a * x)%R (fun _ => b)).
  now rewrite (sum_of_scal a (fun x => x)), sum_of_const.
Qed.

Lemma average_affine a b l : l <> [] -> average (map (fun x => a * x + b)%R l) = (a * average l + b)%R.
Proof.
  intros Hl. unfold average. rewrite sum_affine, map_length. field. apply not_0_INR.
  destruct l; [congruence|simpl; lia].
Qed.

Lemma dev2_affine a b l : dev2 (map (fun x => a * x + b)%R l) = (a * a * dev2 l)%R.
Proof.
  destruct l as [|x l]; [unfold dev2; simpl; ring|]. unfold dev2.
  rewrite average_affine by congruence. rewrite sum_of_map, <- sum_of_scal.
  apply sum_of_ext_in. intros y _. ring.
Qed.

Lemma complete_pairs_affine a b c d x y :
  complete_pairs (affine a b x) (affine c d y) =
  map (fun p => (a * fst p + b, c * snd p + d)%R) (complete_pairs x y).
Proof.
  revert y. induction x as [|[x|] xs IH]; intros [|[y|] ys]; simpl; auto. now rewrite <- IH.
Qed.

Lemma codev_affine a b c d ps :
  codev (map (fun p => (a * fst p + b, c * snd p + d)%R) ps) = (a * c * codev ps)%R.
Proof.
  destruct ps as [|p ps]; [unfold codev; simpl; ring|]. set (l := p :: ps). unfold codev.
  rewrite !map_map. cbn [fst snd].
  rewrite <- (map_map fst (fun x => a * x + b)%R), <- (map_map snd (fun x => c * x + d)%R).
  rewrite !average_affine by (unfold l; simpl; congruence).
  rewrite sum_of_map, <- sum_of_scal. apply sum_of_ext_in. intros q _. cbn [fst snd]. ring.
Qed.

(** The sign of the scale factors is what matters. *)
Lemma pearson_affine a b c d x y : (0 < a * c)%R ->
  pearson (affine a b x) (affine c d y) = pearson x y.
Proof.
  intros Hac. rewrite !pearson_eq, complete_pairs_affine. set (ps := complete_pairs x y).
  assert (E1 : map fst (map (fun p => (a * fst p + b, c * snd p + d)%R) ps) =
               map (fun x => a * x + b)%R (map fst ps)) by now rewrite !map_map.
  assert (E2 : map snd (map (fun p => (a * fst p + b, c * snd p + d)%R) ps) =
               map (fun x => c * x + d)%R (map snd ps)) by now rewrite !map_map.
  rewrite E1, E2, !dev2_affine, codev_affine.
  set (u := dev2 (map fst ps)). set (v := dev2 (map snd ps)).
  assert (Es : sqrt (a * a * u * (c * c * v)) = (a * c * sqrt (u * v))%R).
  { replace (a * a * u * (c * c * v))%R with ((a * c) * (a * c) * (u * v))%R by ring.
    rewrite sqrt_mult.
    - rewrite sqrt_square; [reflexivity|lra].
    - nra.
    - apply Rmult_le_pos; apply dev2_nonneg. }
  rewrite Es. destruct (Req_EM_T (sqrt (u * v)) 0) as [E|E].
  - rewrite E, Rmult_0_r. destruct (Req_EM_T 0 0); [reflexivity|congruence].
  - destruct (Req_EM_T (a * c * sqrt (u * v)) 0) as [F|F].
    + exfalso. apply Rmult_integral in F as [F|F]; [lra|auto].
    + f_equal. field. repeat split; auto; intros ->; lra.
Qed.

Lemma mean_affine a b l : mean (affine a b l) = option_map (fun x => a * x + b)%R (mean l).
Proof.
  unfold mean. rewrite dropna_affine. destruct (dropna l) as [|x xs]; [reflexivity|].
  cbn [map option_map]. f_equal.
  assert (H := average_affine a b (x :: xs)). rewrite <- !average_eq in H. apply H. congruence.
Qed.

Lemma std_affine a b l : (0 < a)%R -> std (affine a b l) = option_map (fun s => a * s)%R (std l).
Proof.
  intros Ha. unfold std. rewrite mean_affine, dropna_affine. unfold mean.
  destruct (dropna l) as [|x [|y xs]]; [reflexivity|reflexivity|].
  set (l2 := x :: y :: xs).
  change (Some (sqrt (rsum_list (map (fun z => (z - (a * (rsum_list l2 / INR (length l2)) + b)) *
                                              (z - (a * (rsum_list l2 / INR (length l2)) + b)))%R
                                    (map (fun x => a * x + b)%R l2)) /
                      (INR (length (map (fun x => a * x + b)%R l2)) - 1))) =
          Some (a * sqrt (rsum_list (map (fun z => (z - rsum_list l2 / INR (length l2)) *
                                                   (z - rsum_list l2 / INR (length l2)))%R l2) /
                          (INR (length l2) - 1)))%R).
  f_equal.
  assert (Hl : (0 < INR (length l2) - 1)%R).
  { unfold l2. cbn [length]. rewrite !S_INR. assert (H := pos_INR (length xs)). lra. }
  rewrite map_length, !average_eq, map_map, !hsum_map.
  rewrite (sum_of_ext_in _ (fun x => a * a * ((x - average l2) * (x - average l2)))%R)
    by (intros; ring).
  rewrite sum_of_scal. fold (dev2 l2).
  replace (a * a * dev2 l2 / (INR (length l2) - 1))%R
    with (a * a * (dev2 l2 / (INR (length l2) - 1)))%R by (field; lra).
  rewrite sqrt_mult.
  - now rewrite sqrt_square by lra.
  - nra.
  - apply Rmult_le_pos; [apply dev2_nonneg|]. left. now apply Rinv_0_lt_compat.
Qed.

Lemma fdiv_scale a x y : (a <> 0)%R -> fdiv (a * x) (a * y) = fdiv x y.
Proof.
  intros Ha. unfold fdiv.
  destruct (Req_EM_T y 0) as [->|Hy].
  - rewrite Rmult_0_r. destruct (Req_EM_T 0 0); [|congruence].
    destruct (Req_EM_T x 0) as [->|Hx].
    + rewrite Rmult_0_r. now destruct (Req_EM_T 0 0).
    + destruct (Req_EM_T (a * x) 0) as [F|F]; [|reflexivity].
      exfalso. apply Rmult_integral in F as [F|F]; auto.
  - destruct (Req_EM_T (a * y) 0) as [F|F].
    + exfalso. apply Rmult_integral in F as [F|F]; auto.
    + f_equal. now field.
Qed.

Lemma rescale_affine a b m s c : (a <> 0)%R ->
  rescale (option_map (fun x => a * x + b)%R m) (option_map (fun s => a * s)%R s) (affine a b c) =
  rescale m s c.
Proof.
  intros Ha. unfold rescale, affine. rewrite map_map. apply map_ext. intros [x|]; [|reflexivity].
  destruct m as [m|], s as [s|]; try reflexivity. cbn [option_map].
  replace (a * x + b - (a * m + b))%R with (a * (x - m))%R by ring. now apply fdiv_scale.
Qed.

(** ** Frames *)

Definition col_rel (c c' : list (option R)) : Prop :=
  exists a b, (0 < a)%R /\ c' = affine a b c.
Definition named_rel (x y : string * list (option R)) : Prop :=
  fst y = fst x /\ col_rel (snd x) (snd y).

Lemma affine_id c : affine 1 0 c = c.
Proof.
  unfold affine. rewrite <- (map_id c) at 2. apply map_ext. intros [x|]; [|reflexivity].
  simpl. f_equal. ring.
Qed.

Lemma col_rel_refl c : col_rel c c.
Proof. exists 1%R, 0%R. split; [lra|]. now rewrite affine_id. Qed.

Lemma corr_rel df df' : Forall2 named_rel df df' -> corr df' = corr df.
Proof.
  intros H. unfold corr.
  assert (E : map fst df' = map fst df).
  { induction H as [|x y l l' [Hn _] _ IH]; simpl; congruence. }
  rewrite E. f_equal.
  assert (Hrow : forall c c', col_rel c c' ->
    map (fun b => pearson c' (snd b)) df' = map (fun b => pearson c (snd b)) df).
  { intros c c' (a & b & Ha & ->). clear E. induction H as [|x y l l' (Hn & d & e & Hd & Ey) _ IH];
      [reflexivity|]. simpl. rewrite IH, Ey. f_equal. apply pearson_affine. nra. }
  assert (G : forall l l', Forall2 named_rel l l' ->
    map (fun a => map (fun b => pearson (snd a) (snd b)) df') l' =
    map (fun a => map (fun b => pearson (snd a) (snd b)) df) l).
  { intros l l' Hl. induction Hl as [|x y l l' [_ Hc] _ IH]; [reflexivity|].
    simpl. now rewrite (Hrow _ _ Hc), IH. }
  now apply G.
Qed.

Lemma suffix_rel t df df' : Forall2 named_rel df df' ->
  Forall2 named_rel (add_suffix t df) (add_suffix t df').
Proof.
  intros H. induction H as [|x y l l' [Hn Hc] _ IH]; simpl; constructor; [|exact IH].
  split; simpl; [now rewrite Hn|exact Hc].
Qed.

Lemma col_rel_length c c' : col_rel c c' -> length c' = length c.
Proof. intros (a & b & _ & ->). apply map_length. Qed.

Lemma concat_rel dfs dfs' : Forall2 (Forall2 named_rel) dfs dfs' ->
  res_rel (Forall2 named_rel) (concat_frames dfs) (concat_frames dfs').
Proof.
  intros H. unfold concat_frames.
  assert (Hall : Forall2 named_rel (flat_map (fun df => df) dfs) (flat_map (fun df => df) dfs')).
  { induction H; simpl; [constructor|]. now apply Forall2_app. }
  destruct H as [|d d' l l' Hd Hl]; [reflexivity|]. cbn [res_rel].
  set (x := flat_map (fun df => df) (d :: l)) in *.
  set (y := flat_map (fun df => df) (d' :: l')) in *.
  assert (En : map (fun c : string * list (option R) => length (snd c)) y =
               map (fun c => length (snd c)) x).
  { clear -Hall. induction Hall as [|a b k k' [_ Hc] _ IH]; simpl; [reflexivity|].
    now rewrite IH, (col_rel_length _ _ Hc). }
  rewrite En. generalize (list_max (map (fun c : string * list (option R) => length (snd c)) x)).
  intros n. clear -Hall. induction Hall as [|a b k k' [Hn Hc] _ IH]; simpl; constructor; [|exact IH].
  split; simpl; [exact Hn|]. rewrite (col_rel_length _ _ Hc). destruct Hc as (s & t & Hs & ->).
  exists s, t. split; [exact Hs|]. unfold affine. rewrite map_app. f_equal.
  generalize (n - length (snd a)). intros m. induction m; simpl; congruence.
Qed.

Lemma stack_rel single single' ts :
  (forall t, In t ts -> res_rel (Forall2 named_rel) (single t) (single' t)) ->
  res_rel (Forall2 named_rel) (stack_periods single ts) (stack_periods single' ts).
Proof.
  intros H. destruct ts as [|t0 [|t1 ts]].
  - reflexivity.
  - apply H. now left.
  - cbn [stack_periods]. apply (rbind_rel (Forall2 (Forall2 named_rel))).
    + apply mapM_rel. intros t Ht. apply (rbind_rel (Forall2 named_rel)); [now apply H|].
      intros d d' Hd. now apply suffix_rel.
    + intros d d' Hd. now apply concat_rel.
Qed.

(** ** One variable in other units *)

Section Units.
  Variables (v : string) (a b : R).
  Hypothesis Ha : (0 < a)%R.

  Definition unit_cell (c : string) (x : option R) : option R :=
    if String.eqb c v then option_map (fun x => a * x + b)%R x else x.

  Lemma unit_cell_none c : unit_cell c None = None.
  Proof. unfold unit_cell. now destruct (String.eqb c v). Qed.

  Lemma units_rows df : Forall2 (drel unit_cell) (fr_rows df) (fr_rows (in_other_units v a b df)).
  Proof.
    unfold in_other_units. cbn [fr_rows]. induction (fr_rows df) as [|r l IH]; simpl; constructor;
      [|exact IH]. unfold drel, unit_cell. simpl. auto.
  Qed.

  Lemma pre_process_units df ts :
    res_rel (Forall2 (prel unit_cell)) (pre_process_data df ts)
            (pre_process_data (in_other_units v a b df) ts).
  Proof. apply pre_process_rel; [exact unit_cell_none|reflexivity|reflexivity|apply units_rows]. Qed.

  Variables (cols : list string) (rows rows' : list (prow R)) (u : list urow).
  Hypothesis Hrows : Forall2 (prel unit_cell) rows rows'.

  (** The scale and shift of a column *)
  Definition ua (c : string) : R := if String.eqb c v then a else 1%R.
  Definition ub (c : string) : R := if String.eqb c v then b else 0%R.

  Lemma ua_pos c : (0 < ua c)%R.
  Proof. unfold ua. destruct (String.eqb c v); lra. Qed.

  Lemma get_col_units t c :
    res_rel (fun x y => y = affine (ua c) (ub c) x) (get_col cols rows t c) (get_col cols rows' t c).
  Proof.
    unfold get_col. destruct (smem c cols); [|reflexivity]. simpl.
    rewrite (column_rel unit_cell c _ _ (in_period_rel unit_cell t _ _ Hrows)).
    unfold unit_cell, ua, ub. destruct (String.eqb c v); [reflexivity|].
    rewrite affine_id. apply map_id.
  Qed.

  Lemma named_col_units t c :
    res_rel named_rel (get_named_col cols rows t c) (get_named_col cols rows' t c).
  Proof.
    unfold get_named_col. apply (rbind_rel _ _ _ _ _ _ (get_col_units t c)).
    intros x y ->. split; [reflexivity|]. exists (ua c), (ub c). split; [apply ua_pos|reflexivity].
  Qed.

  Lemma length_units t : length (in_period t rows') = length (in_period t rows).
  Proof.
    assert (H := in_period_rel unit_cell t _ _ Hrows). induction H; simpl; congruence.
  Qed.

  Variables (latent observed : list string).

  Lemma measurement_units t :
    res_rel (Forall2 named_rel) (measurement_data_single cols rows u latent observed t)
            (measurement_data_single cols rows' u latent observed t).
  Proof.
    unfold measurement_data_single. destruct (period_info u t) as [info|e]; [|reflexivity].
    cbn [rbind]. apply mapM_rel. intros c _. apply named_col_units.
  Qed.

  Lemma concat_series_rel d d' : Forall2 named_rel d d' ->
    res_rel (Forall2 named_rel) (concat_series d) (concat_series d').
  Proof. intros H. unfold concat_series. destruct H; [reflexivity|]. simpl. now constructor. Qed.

  Lemma quasi_units t :
    res_rel (Forall2 named_rel) (quasi_scores_single cols rows u latent observed t)
            (quasi_scores_single cols rows' u latent observed t).
  Proof.
    unfold quasi_scores_single. destruct (period_info u t) as [info|e]; [|reflexivity].
    cbn [rbind]. apply (rbind_rel (Forall2 named_rel)).
    - apply mapM_rel. intros f _.
      apply (rbind_rel (fun x y => map (fun c => rescale (mean c) (std c) c) y =
                                   map (fun c => rescale (mean c) (std c) c) x)).
      + assert (H2 : forall l, res_rel (Forall2 (fun x y => exists c, y = affine (ua c) (ub c) x))
          (mapM (get_col cols rows t) l) (mapM (get_col cols rows' t) l)).
        { intros l. apply mapM_rel. intros c _. assert (G := get_col_units t c).
          destruct (get_col cols rows t c), (get_col cols rows' t c); simpl in *; auto. now exists c. }
        specialize (H2 (factor_measurements info f)).
        destruct (mapM (get_col cols rows t) _) as [x|], (mapM (get_col cols rows' t) _) as [y|];
          simpl in *; auto.
        induction H2 as [|c c' x y (k & ->) _ IH]; simpl; [reflexivity|]. rewrite IH. f_equal.
        rewrite mean_affine, (std_affine _ _ _ (ua_pos k)). apply rescale_affine.
        assert (G := ua_pos k). lra.
      + intros x y E. simpl. rewrite E, length_units. split; [reflexivity|apply col_rel_refl].
    - intros x y Hxy. apply (rbind_rel (Forall2 named_rel)).
      + apply mapM_rel. intros c _. apply named_col_units.
      + intros w z Hwz. apply concat_series_rel. now apply Forall2_app.
  Qed.

  (** *** Scores *)

  Definition par_rel (x y : label * R) : Prop :=
    fst y = fst x /\
    (lb_cat (fst x) = CLoadings -> snd y = (ua (lb_name1 (fst x)) * snd x)%R) /\
    (lb_cat (fst x) = CControls -> lb_name2 (fst x) = "constant" ->
       snd y = (ua (lb_name1 (fst x)) * snd x + ub (lb_name1 (fst x)))%R).

  Lemma params_units params : Forall2 par_rel params (equations_in_other_units v a b params).
  Proof.
    unfold equations_in_other_units. rewrite <- (map_id params) at 1. apply Forall2_maps.
    intros [[[[c t] x] y] r]. unfold par_rel, ua, ub, lb_cat, lb_name1, lb_name2. cbn [fst snd].
    destruct (String.eqb x v); repeat split; intros ->; try ring; intros ->; simpl; ring.
  Qed.

  Lemma filter_par_rel P params params' : Forall2 par_rel params params' ->
    Forall2 par_rel (filter (fun row : label * R => P (fst row)) params)
            (filter (fun row => P (fst row)) params').
  Proof.
    intros H. induction H as [|x y l l' Hxy _ IH]; simpl; [constructor|].
    assert (E : fst y = fst x) by apply Hxy. rewrite E.
    destruct (P (fst x)); [constructor|]; assumption.
  Qed.

  Lemma existsb_par_rel P params params' : Forall2 par_rel params params' ->
    existsb (fun row : label * R => P (fst row)) params' = existsb (fun row => P (fst row)) params.
  Proof.
    intros H. induction H as [|x y l l' [E _] _ IH]; simpl; [reflexivity|]. now rewrite E, IH.
  Qed.

  Lemma find_par_rel P params params' : Forall2 par_rel params params' ->
    match find (fun row : label * R => P (fst row)) params, find (fun row => P (fst row)) params' with
    | Some x, Some y => par_rel x y
    | None, None => True
    | _, _ => False
    end.
  Proof.
    intros H. induction H as [|x y l l' Hxy _ IH]; simpl; [exact I|].
    assert (E : fst y = fst x) by apply Hxy. rewrite E. destruct (P (fst x)); assumption.
  Qed.

  Lemma count_par_rel m l l' : Forall2 par_rel l l' ->
    (forall row, In row l -> lb_cat (fst row) = CLoadings) ->
    length (filter (fun row => String.eqb (lb_name1 (fst row)) m &&
              if Req_EM_T (snd row) 0 then false else true) l') =
    length (filter (fun row => String.eqb (lb_name1 (fst row)) m &&
              if Req_EM_T (snd row) 0 then false else true) l).
  Proof.
    intros H. induction H as [|x y l l' Hxy _ IH]; intros Hl; [reflexivity|]. cbn [filter].
    assert (E : fst y = fst x) by apply Hxy. rewrite E.
    assert (Es : snd y = (ua (lb_name1 (fst x)) * snd x)%R) by (apply Hxy, Hl; now left).
    assert (Ez : (if Req_EM_T (snd y) 0 then false else true) =
                 (if Req_EM_T (snd x) 0 then false else true)).
    { rewrite Es. assert (Hu := ua_pos (lb_name1 (fst x))).
      destruct (Req_EM_T (snd x) 0) as [->|Hx].
      - rewrite Rmult_0_r. now destruct (Req_EM_T 0 0).
      - destruct (Req_EM_T _ 0) as [F|F]; [|reflexivity].
        exfalso. apply Rmult_integral in F as [F|F]; [lra|auto]. }
    rewrite Ez. assert (IH' := IH (fun row Hr => Hl row (or_intror Hr))).
    destruct (_ && _); simpl; now rewrite IH'.
  Qed.

  Lemma scores_units params params' t : Forall2 par_rel params params' ->
    res_rel (Forall2 named_rel) (scores_single cols rows u latent observed params t)
            (scores_single cols rows' u latent observed params' t).
  Proof.
    intros Hpar. unfold scores_single. destruct (period_info u t) as [info|e]; [|reflexivity].
    cbn [rbind].
    apply (filter_par_rel (fun lb => lb_period lb =? t)) in Hpar.
    set (q := filter (fun row : label * R => lb_period (fst row) =? t) params) in *.
    set (q' := filter (fun row : label * R => lb_period (fst row) =? t) params') in *.
    assert (HL := filter_par_rel (fun lb => cat_eqb (lb_cat lb) CLoadings) _ _ Hpar).
    assert (HC := filter_par_rel (fun lb => cat_eqb (lb_cat lb) CControls) _ _ Hpar).
    assert (HLc : forall row, In row (filter (fun row : label * R => cat_eqb (lb_cat (fst row)) CLoadings) q) ->
              lb_cat (fst row) = CLoadings).
    { intros row Hr. apply filter_In in Hr as [_ Hr]. now destruct (lb_cat (fst row)). }
    assert (HCc : forall row, In row (filter (fun row : label * R => cat_eqb (lb_cat (fst row)) CControls) q) ->
              lb_cat (fst row) = CControls).
    { intros row Hr. apply filter_In in Hr as [_ Hr]. now destruct (lb_cat (fst row)). }
    set (L := filter (fun row : label * R => cat_eqb (lb_cat (fst row)) CLoadings) q) in *.
    set (L' := filter (fun row : label * R => cat_eqb (lb_cat (fst row)) CLoadings) q') in *.
    set (C := filter (fun row : label * R => cat_eqb (lb_cat (fst row)) CControls) q) in *.
    set (C' := filter (fun row : label * R => cat_eqb (lb_cat (fst row)) CControls) q') in *.
    clearbody L L' C C'.
    set (PL := fun x y => Forall2 par_rel x y /\ forall row, In row x -> lb_cat (fst row) = CLoadings).
    set (PC := fun x y => Forall2 par_rel x y /\ forall row, In row x -> lb_cat (fst row) = CControls).
    apply (rbind_rel PL).
    { destruct HL; [reflexivity|]. split; [now constructor|exact HLc]. }
    clear L L' HL HLc. intros L L' [HL HLc]. apply (rbind_rel PC).
    { destruct HC; [reflexivity|]. split; [now constructor|exact HCc]. }
    clear C C' HC HCc. intros C C' [HC HCc].
    apply (rbind_rel (Forall2 named_rel)).
    - apply mapM_rel. intros f _.
      assert (Ems : filter (fun m => negb (1 <? length (filter (fun row => String.eqb (lb_name1 (fst row)) m &&
                      if Req_EM_T (snd row) 0 then false else true) L'))) (factor_measurements info f) =
                    filter (fun m => negb (1 <? length (filter (fun row => String.eqb (lb_name1 (fst row)) m &&
                      if Req_EM_T (snd row) 0 then false else true) L))) (factor_measurements info f)).
      { apply filter_ext. intros m. now rewrite (count_par_rel m L L' HL HLc). }
      rewrite Ems. clear Ems.
      set (ms := filter _ (factor_measurements info f)). clearbody ms.
      apply (rbind_rel (Forall2 (fun x y => fst y = fst x /\
               snd y = affine (ua (fst x)) (ub (fst x)) (snd x)))).
      { apply mapM_rel. intros c _. apply (rbind_rel _ _ _ _ _ _ (get_col_units t c)).
        intros x y ->. now split. }
      intros d d' Hd. apply (rbind_rel (Forall2 eq)).
      { apply (mapM_rel2 _ eq _ _ _ _ Hd). intros [m c] [m' c'] [E1 E2]. cbn [fst snd] in *. subst m' c'.
        assert (HI := filter_par_rel (fun lb => String.eqb (lb_name2 lb) "constant") _ _ HC).
        assert (HIc : forall row, In row (filter (fun row : label * R => String.eqb (lb_name2 (fst row)) "constant") C) ->
                  lb_cat (fst row) = CControls /\ lb_name2 (fst row) = "constant").
        { intros row Hr. apply filter_In in Hr as [Hr E]. split; [now apply HCc|]. now apply String.eqb_eq. }
        assert (F1 := find_par_rel (fun lb => String.eqb (lb_name1 lb) m) _ _ HI).
        assert (F2 := find_par_rel (fun lb => String.eqb (lb_name1 lb) m && String.eqb (lb_name2 lb) f) _ _ HL).
        cbn beta in F1, F2.
        set (i := find (fun row : label * R => String.eqb (lb_name1 (fst row)) m)
                    (filter (fun row : label * R => String.eqb (lb_name2 (fst row)) "constant") C)) in *.
        set (i' := find (fun row : label * R => String.eqb (lb_name1 (fst row)) m)
                    (filter (fun row : label * R => String.eqb (lb_name2 (fst row)) "constant") C')) in *.
        set (l := find (fun row : label * R => String.eqb (lb_name1 (fst row)) m && String.eqb (lb_name2 (fst row)) f) L) in *.
        set (l' := find (fun row : label * R => String.eqb (lb_name1 (fst row)) m && String.eqb (lb_name2 (fst row)) f) L') in *.
        assert (Ei := eq_refl i). unfold i at 1 in Ei. assert (El := eq_refl l). unfold l at 1 in El.
        clearbody i i' l l'.
        destruct i as [xi|], i' as [yi|], l as [xl|], l' as [yl|]; try contradiction; try reflexivity.
        apply find_some in Ei as [Ii Ni], El as [Il Nl].
        apply String.eqb_eq in Ni. apply andb_prop in Nl as [Nl _]. apply String.eqb_eq in Nl.
        destruct (HIc _ Ii) as [Hic Hin]. destruct F1 as (_ & _ & F1), F2 as (_ & F2 & _).
        rewrite (F1 Hic Hin), (F2 (HLc _ Il)), Ni, Nl. simpl.
        symmetry. apply (rescale_affine (ua m) (ub m) (Some _) (Some _)). assert (G := ua_pos m). lra. }
      intros w z Hwz. simpl.
      assert (E : z = w) by (clear -Hwz; induction Hwz; congruence). rewrite E, length_units.
      split; [reflexivity|apply col_rel_refl].
    - intros x y Hxy. apply (rbind_rel (Forall2 named_rel)).
      + apply mapM_rel. intros c _. apply named_col_units.
      + intros w z Hwz. apply concat_series_rel. now apply Forall2_app.
  Qed.
End Units.

