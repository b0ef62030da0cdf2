(** Facts about the data of distribution plots. *)
Require Import Reals QArith String Arith ZArith Bool List Lia Lra.
From Verif Require Import PyBase ListFacts StringFacts ModelSpec CheckModel SpecModel ProcessModel ProcessData DebugData SpecDebug DebugFacts PropsDebug IndexFacts
  Simulate Heatmap Kalman Likelihood TransitionPlots SpecPlots PlotFacts PlotDataFacts DistributionPlots SpecDistributions.
Import ListNotations.
Open Scope string_scope.
Open Scope list_scope.
Open Scope nat_scope.

Definition rows_in (t : nat) (st : table) : list (string -> cell) := filter (in_period t) (tb_rows st).

Lemma values_in_rows t st f : values_in t st f = map (fun row => number_of (row f)) (rows_in t st).
Proof. unfold values_in, cells_of_period, rows_in. now rewrite map_map. Qed.

Lemma values_in_length t st f : length (values_in t st f) = length (rows_in t st).
Proof. rewrite values_in_rows. apply map_length. Qed.

Lemma has_rows_spec t st : has_rows t st = negb (length (rows_in t st) =? 0).
Proof.
  unfold has_rows, rows_in. induction (tb_rows st) as [|row l IH]; [reflexivity|]. cbn [existsb filter].
  change (match row "period" with CInt s => s =? t | _ => false end) with (in_period t row).
  destruct (in_period t row); [reflexivity|exact IH].
Qed.

(** The processed data in terms of the tables. *)
Definition stacked (t : nat) (tables : list (scenario * table)) (fs : list string) : dist_data :=
  mk_dist (flat_map (fun st => repeat (Some (fst st)) (length (rows_in t (snd st)))) tables)
    (map (fun f => (Some f, flat_map (fun st => values_in t (snd st) f) tables)) fs).

Lemma map_const {A B} (b : B) (l : list A) : map (fun _ => b) l = repeat b (length l).
Proof. induction l; simpl; congruence. Qed.

Lemma query_period_ok t st : In "period" (tb_columns st) -> query_period st t = Ok (rows_in t st).
Proof. intros H. unfold query_period. apply smem_In in H. rewrite H. reflexivity. Qed.

Lemma filter_all {A} (f : A -> bool) l : (forall x, In x l -> f x = true) -> filter f l = l.
Proof.
  induction l as [|x l IH]; intros H; [reflexivity|]. simpl. rewrite H by now left. f_equal. apply IH.
  intros y Hy. apply H. now right.
Qed.

Lemma scenarios_ok t fs (tables : list (scenario * table)) :
  (forall name st, In (name, st) tables -> forall column, In column ("period" :: fs) -> In column (tb_columns st)) ->
  mapM (fun nt =>
      do rows <- query_period (snd nt) t;
      if forallb (fun f => smem f (tb_columns (snd nt))) fs
      then Ok (map (fun row => (fst nt, row)) rows)
      else Err KeyError) tables
  = Ok (map (fun nt => map (fun row => (fst nt, row)) (rows_in t (snd nt))) tables).
Proof.
  intros H. rewrite <- mapM_Ok_map. apply mapM_ext. intros [name st] Hin. cbn [fst snd].
  rewrite query_period_ok by (apply (H name st Hin); now left). cbn [rbind].
  assert (E : forallb (fun f => smem f (tb_columns st)) fs = true).
  { apply forallb_forall. intros f Hf. apply smem_In. apply (H name st Hin). now right. }
  now rewrite E.
Qed.

Lemma combine_map_l {A B C} (f : A -> C) (l : list A) (l' : list B) :
  combine (map f l) l' = map (fun ab => (f (fst ab), snd ab)) (combine l l').
Proof. revert l'. induction l as [|x l IH]; intros [|y l']; simpl; congruence. Qed.

Lemma process_ok t states fs : fs <> [] -> states_for states fs ->
  dist_process_data states t fs None = Ok (stacked t (tables_of states) fs).
Proof.
  intros Hne (Hnn & _ & Hcols). unfold dist_process_data.
  assert (Hstack : forall tables, tables <> [] ->
    match map (fun nt : scenario * table => map (fun row => (fst nt, row)) (rows_in t (snd nt))) tables with
    | [] => Err ValueError
    | _ :: _ =>
        let rows := concat (map (fun nt => map (fun row => (fst nt, row)) (rows_in t (snd nt))) tables) in
        Ok (mk_dist (map (fun sr => Some (fst sr)) rows)
              (map (fun f => (Some f, map (fun sr => number_of (snd sr f)) rows)) fs))
    end = Ok (stacked t tables fs)).
  { intros tables Ht. destruct tables as [|x tables]; [contradiction|]. cbn [map]. cbv zeta. f_equal. unfold stacked. f_equal.
    - change (map (fun row => (fst x, row)) (rows_in t (snd x)) :: map (fun nt => map (fun row => (fst nt, row)) (rows_in t (snd nt))) tables)
        with (map (fun nt : scenario * table => map (fun row => (fst nt, row)) (rows_in t (snd nt))) (x :: tables)).
      generalize (x :: tables) as ts. intros ts. induction ts as [|y ts IH]; [reflexivity|].
      cbn [map concat flat_map]. rewrite map_app, IH, map_map. cbn [fst]. now rewrite map_const.
    - apply map_ext. intros f. f_equal.
      change (map (fun row => (fst x, row)) (rows_in t (snd x)) :: map (fun nt => map (fun row => (fst nt, row)) (rows_in t (snd nt))) tables)
        with (map (fun nt : scenario * table => map (fun row => (fst nt, row)) (rows_in t (snd nt))) (x :: tables)).
      generalize (x :: tables) as ts. intros ts. induction ts as [|y ts IH]; [reflexivity|].
      cbn [map concat flat_map]. rewrite map_app, IH, map_map. cbn [snd]. now rewrite values_in_rows. }
  destruct states as [st|d|l].
  - cbn [tables_of] in *. assert (Hc : forall c, In c ("period" :: fs) -> In c (tb_columns st)) by (apply (Hcols ScNone); now left).
    rewrite filter_all.
    2:{ intros f Hf. apply smem_In. apply Hc. now right. }
    destruct fs as [|f fs]; [contradiction|]. rewrite query_period_ok by (apply Hc; now left). cbn [rbind].
    unfold stacked. cbn [flat_map]. rewrite app_nil_r, map_const. do 2 f_equal. apply map_ext. intros g.
    cbn [snd]. now rewrite app_nil_r, values_in_rows.
  - cbn [tables_of] in *. rewrite scenarios_ok by exact Hcols. cbn [rbind]. now rewrite (Hstack _ Hnn).
  - cbn [tables_of] in *. rewrite combine_map_l. unfold range. rewrite scenarios_ok by exact Hcols. cbn [rbind].
    now rewrite (Hstack _ Hnn).
Qed.

Lemma stacked_column t tables fs f : NoDup fs -> In f fs ->
  dist_column (stacked t tables fs) f = Ok (flat_map (fun st => values_in t (snd st) f) tables).
Proof.
  intros Hnd Hf. unfold dist_column, stacked. cbn [dd_columns].
  assert (E : filter (fun c => match fst c with Some s => String.eqb s f | None => false end)
                (map (fun f => (Some f, flat_map (fun st => values_in t (snd st) f) tables)) fs)
              = [(Some f, flat_map (fun st => values_in t (snd st) f) tables)]).
  { induction fs as [|g fs IH]; [destruct Hf|]. inversion Hnd as [|? ? Hni Hnd']; subst. cbn [map filter fst].
    destruct Hf as [->|Hf].
    - rewrite String.eqb_refl. f_equal.
      assert (G : forall l, ~ In f l -> filter (fun c : option string * list (option R) => match fst c with Some s => String.eqb s f | None => false end)
                 (map (fun f => (Some f, flat_map (fun st => values_in t (snd st) f) tables)) l) = []).
      { intros l. induction l as [|h l IHl]; intros Hn; [reflexivity|]. cbn [map filter fst].
        destruct (String.eqb_spec h f) as [->|_]; [exfalso; apply Hn; now left|]. apply IHl. intros Hin. apply Hn. now right. }
      now apply G.
    - destruct (String.eqb_spec g f) as [->|_]; [contradiction|]. now apply IH. }
  rewrite E. reflexivity.
Qed.

Lemma scenario_eqb_spec a b : scenario_eqb a b = true <-> a = b.
Proof.
  destruct a, b; simpl; try (split; [discriminate|intros [=]]; fail); try tauto.
  - rewrite String.eqb_eq. split; congruence.
  - rewrite Nat.eqb_eq. split; congruence.
Qed.

Lemma scenario_eqb_refl a : scenario_eqb a a = true.
Proof. now apply scenario_eqb_spec. Qed.

Lemma stacked_scenarios t tables fs : NoDup (map fst tables) ->
  unique_scenarios (stacked t tables fs) = map (fun st => Some (fst st)) (filter (fun st => has_rows t (snd st)) tables).
Proof.
  intros Hnd. unfold unique_scenarios, stacked. cbn [dd_scenario].
  set (step := fun acc s => if existsb (option_scenario_eqb s) acc then acc else acc ++ [s]).
  assert (Hrep : forall s k acc, existsb (option_scenario_eqb (Some s)) acc = true -> fold_left step (repeat (Some s) k) acc = acc).
  { intros s k acc H. induction k as [|k IH]; [reflexivity|]. cbn [repeat fold_left].
    replace (step acc (Some s)) with acc by (unfold step; now rewrite H). exact IH. }
  assert (G : forall acc, (forall s, In s (map fst tables) -> existsb (option_scenario_eqb (Some s)) acc = false) ->
    fold_left step (flat_map (fun st => repeat (Some (fst st)) (length (rows_in t (snd st)))) tables) acc
    = acc ++ map (fun st => Some (fst st)) (filter (fun st => has_rows t (snd st)) tables)).
  { induction tables as [|[s st] tables IH]; intros acc Hacc; [now rewrite app_nil_r|].
    cbn [flat_map filter fst snd]. rewrite has_rows_spec, fold_left_app.
    inversion Hnd as [|? ? Hni Hnd']; subst. cbn [map fst] in Hacc, Hni.
    destruct (length (rows_in t st)) as [|k]; cbn [repeat fold_left Nat.eqb negb].
    - apply (IH Hnd'). intros s' Hs'. apply Hacc. now right.
    - replace (step acc (Some s)) with (acc ++ [Some s]) by (unfold step; now rewrite (Hacc s (or_introl eq_refl))).
      rewrite Hrep.
      2:{ rewrite existsb_app. cbn [existsb option_scenario_eqb]. rewrite scenario_eqb_refl. now rewrite !orb_true_r. }
      rewrite (IH Hnd').
      + now rewrite <- app_assoc.
      + intros s' Hs'. rewrite existsb_app, Hacc by now right. cbn [existsb option_scenario_eqb orb].
        destruct (scenario_eqb s' s) eqn:E; [|reflexivity]. apply scenario_eqb_spec in E. subst s'. contradiction. }
  rewrite G; [reflexivity|]. intros s _. reflexivity.
Qed.

Lemma combine_app' {A B} (l1 l2 : list A) (m1 m2 : list B) : length l1 = length m1 ->
  combine (l1 ++ l2) (m1 ++ m2) = combine l1 m1 ++ combine l2 m2.
Proof.
  revert m1. induction l1 as [|x l1 IH]; intros [|y m1] H; try discriminate; [reflexivity|].
  simpl. f_equal. apply IH. now injection H.
Qed.

Lemma where_block {A} (s s' : scenario) (l : list A) :
  filter (fun sv => match fst sv with Some b => scenario_eqb s b | None => false end)
    (combine (repeat (Some s') (length l)) l)
  = if scenario_eqb s s' then combine (repeat (Some s') (length l)) l else [].
Proof.
  induction l as [|x l IH]; cbn [length repeat combine filter fst]; [now destruct (scenario_eqb s s')|].
  destruct (scenario_eqb s s'); [now rewrite IH|exact IH].
Qed.

Lemma stacked_where t tables fs f name st : NoDup (map fst tables) -> In (name, st) tables ->
  where_scenario (stacked t tables fs) (Some name) (flat_map (fun st => values_in t (snd st) f) tables)
  = values_in t st f.
Proof.
  intros Hnd Hin. unfold where_scenario, stacked. cbn [dd_scenario].
  induction tables as [|[s' st'] tables IH]; [destruct Hin|]. inversion Hnd as [|? ? Hni Hnd']; subst.
  cbn [flat_map fst snd] in *. rewrite combine_app'.
  2:{ now rewrite repeat_length, values_in_length. }
  rewrite filter_app, map_app. rewrite <- (values_in_length t st' f), where_block.
  destruct Hin as [E|Hin].
  - injection E as <- <-. rewrite scenario_eqb_refl, map_snd_combine by now rewrite repeat_length.
    assert (Hnone : filter (fun sv => match fst sv with Some b => scenario_eqb s' b | None => false end)
              (combine (flat_map (fun st => repeat (Some (fst st)) (length (rows_in t (snd st)))) tables)
                 (flat_map (fun st => values_in t (snd st) f) tables)) = []).
    { clear IH Hnd Hnd'. induction tables as [|[s2 st2] tables IH]; [reflexivity|]. cbn [flat_map fst snd map] in *.
      rewrite combine_app' by (now rewrite repeat_length, values_in_length). rewrite filter_app.
      rewrite <- (values_in_length t st2 f), where_block. destruct (scenario_eqb s' s2) eqn:E.
      - apply scenario_eqb_spec in E. subst. exfalso. apply Hni. now left.
      - apply IH. intros H. apply Hni. now right. }
    rewrite Hnone. now rewrite app_nil_r.
  - destruct (scenario_eqb name s') eqn:E.
    + apply scenario_eqb_spec in E. subst. exfalso. apply Hni. apply in_map_iff. now exists (s', st).
    + cbn [map app]. now apply IH.
Qed.

(** Everything together, for factors that are not columns of the data. *)
Lemma no_observed (data : frame R) fs : (forall f, In f fs -> ~ In f (fr_columns data)) ->
  get_data_observed_factors data fs = None.
Proof.
  intros H. unfold get_data_observed_factors.
  assert (E : filter (fun f => smem f (fr_columns data)) fs = []).
  { induction fs as [|f fs IH]; [reflexivity|]. cbn [filter]. destruct (smem f (fr_columns data)) eqn:E.
    - apply smem_In in E. exfalso. apply (H f); [now left|exact E].
    - apply IH. intros g Hg. apply H. now right. }
  now rewrite E.
Qed.

Lemma factors_ok md p factors observed fs : process_model md = Ok p -> asked_for md factors observed fs ->
  get_factors (p_labels p) factors observed = fs.
Proof.
  intros Hp H. unfold get_factors, asked_for in *. destruct factors as [l|]; [congruence|].
  unfold l_all. destruct (p_labels_eq md p Hp) as (-> & -> & _). now destruct observed.
Qed.

(** ** Grids *)

Definition cell_number (c : option R) : cell := match c with Some x => CNum x | None => CNan end.

Lemma numbers_In l x : In x (numbers l) <-> In (Some x) l.
Proof.
  unfold numbers. rewrite in_flat_map. split.
  - intros ([y|] & H1 & H2); [|destruct H2]. destruct H2 as [->|[]]. exact H1.
  - intros H. exists (Some x). split; [exact H|now left].
Qed.

Lemma limits nan l : numbers l <> [] ->
  smallest_largest (numbers l) (to_number nan (pd_min (map cell_number l))) (to_number nan (pd_max (map cell_number l))).
Proof.
  intros Hne. pose proof (pd_min_spec (map cell_number l)) as Hmin. pose proof (pd_max_spec (map cell_number l)) as Hmax.
  unfold is_minimum, is_maximum, in_cells in *.
  assert (Hin : forall x, (exists c, In c (map cell_number l) /\ number_of c = Some x) <-> In x (numbers l)).
  { intros x. rewrite numbers_In. split.
    - intros (c & Hc & E). apply in_map_iff in Hc as (o & <- & Ho). destruct o as [y|]; cbn in E; [|discriminate]. injection E as ->. exact Ho.
    - intros H. exists (CNum x). split; [|reflexivity]. apply in_map_iff. now exists (Some x). }
  destruct (pd_min (map cell_number l)) as [lo|], (pd_max (map cell_number l)) as [hi|].
  all: try (exfalso; destruct (numbers l) as [|x xs] eqn:E; [contradiction|];
    first [apply (Hmin x)|apply (Hmax x)]; apply Hin; now left).
  cbn [to_number]. destruct Hmin as [Hlo Hmin]. destruct Hmax as [Hhi Hmax]. repeat split.
  - now apply Hin.
  - now apply Hin.
  - apply Hmin. now apply Hin.
  - apply Hmax. now apply Hin.
Qed.
