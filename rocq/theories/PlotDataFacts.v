(** Lemmas about the data of the transition plots: the rows of a period, the merged
    observed factors, the parameters. *)
Require Import Reals Qreals String Arith ZArith Bool List Lia Lra Permutation Sorted.
From Verif Require Import PyBase ListFacts StringFacts ModelSpec ProcessModel CheckModel SpecModel ProcessModelFacts
  SpecParse SpecIndex IndexFacts ParamsIndex ParseParams ParamsVec ExampleModels PropsSpec ParseFacts AnchorFacts PropsParse
  ProcessData SpecData PropsData RSum Kalman SpecKalman KalmanFacts QRWitness Likelihood
  SpecLikelihood PropsLikelihood
  DebugData SpecDebug DebugFacts PropsDebug PropsFiltered TransitionFunctions SpecTransition PropsTransition
  Simulate PropsSimulateInputs TransitionPlots SpecPlots PlotFacts.
Import ListNotations.
Open Scope string_scope.
Open Scope list_scope.
Open Scope nat_scope.

(** ** Rows of a period *)

Lemma filter_none {A} (f : A -> bool) l : (forall x, In x l -> f x = false) -> filter f l = [].
Proof.
  induction l as [|x l IH]; intros H; [reflexivity|]. simpl. rewrite (H x) by now left.
  apply IH. intros y Hy. apply H. now right.
Qed.

Lemma filter_every {A} (f : A -> bool) l : (forall x, In x l -> f x = true) -> filter f l = l.
Proof.
  induction l as [|x l IH]; intros H; [reflexivity|]. simpl. rewrite (H x) by now left.
  f_equal. apply IH. intros y Hy. apply H. now right.
Qed.

Lemma nth_error_skipn {A} k : forall (l : list A) i, nth_error (skipn k l) i = nth_error l (k + i).
Proof. induction k as [|k IH]; intros [|x l] i; try reflexivity; simpl; [now destruct i|apply IH]. Qed.

Lemma In_firstn_nth {A} k (l : list A) x : In x (firstn k l) -> exists i, i < k /\ nth_error l i = Some x.
Proof.
  intros H. apply In_nth_error in H as [i Hi]. exists i.
  assert (i < k).
  { assert (i < length (firstn k l)) by (apply nth_error_Some; congruence). rewrite firstn_length in H. lia. }
  split; [assumption|]. now rewrite nth_error_first in Hi.
Qed.

Lemma In_skipn_nth {A} k (l : list A) x : In x (skipn k l) -> exists i, k <= i /\ nth_error l i = Some x.
Proof.
  intros H. apply In_nth_error in H as [i Hi]. exists (k + i). split; [lia|]. now rewrite nth_error_skipn in Hi.
Qed.

Lemma filter_block {A} (key : A -> nat -> bool) n m (l : list A) t : t < n -> length l = n * m ->
  (forall s i x, s < n -> i < m -> nth_error l (s * m + i) = Some x -> key x t = (s =? t)) ->
  filter (fun x => key x t) l = firstn m (skipn (t * m) l).
Proof.
  intros Ht Hl Hk.
  assert (Hidx : forall q x, nth_error l q = Some x -> key x t = (q / m =? t) /\ m <> 0).
  { intros q x Hq. assert (Hlt : q < n * m) by (rewrite <- Hl; apply nth_error_Some; congruence).
    assert (Hm : m <> 0) by nia. split; [|exact Hm].
    pose proof (Nat.div_mod q m Hm) as Hd. pose proof (Nat.mod_upper_bound q m Hm) as Hb.
    apply (Hk (q / m) (q mod m)); [apply Nat.div_lt_upper_bound; lia|assumption|].
    replace (q / m * m + q mod m) with q by lia. exact Hq. }
  rewrite <- (firstn_skipn (t * m) l) at 1. rewrite <- (firstn_skipn m (skipn (t * m) l)) at 1.
  rewrite !filter_app. rewrite filter_none, filter_every, filter_none.
  - cbn [app]. apply app_nil_r.
  - intros x Hx. apply In_skipn_nth in Hx as (i & Hi & Hx). rewrite nth_error_skipn in Hx.
    destruct (Hidx _ _ Hx) as [-> Hm]. apply Nat.eqb_neq. intros E.
    pose proof (Nat.div_mod (t * m + i) m Hm). pose proof (Nat.mod_upper_bound (t * m + i) m Hm).
    rewrite E in H. nia.
  - intros x Hx. apply In_firstn_nth in Hx as (i & Hi & Hx). rewrite nth_error_skipn in Hx.
    destruct (Hidx _ _ Hx) as [-> Hm]. apply Nat.eqb_eq. symmetry.
    apply (Nat.div_unique _ m t i); [exact Hi|lia].
  - intros x Hx. apply In_firstn_nth in Hx as (i & Hi & Hx).
    destruct (Hidx _ _ Hx) as [-> Hm]. apply Nat.eqb_neq. intros E.
    pose proof (Nat.div_mod i m Hm). rewrite E in H. nia.
Qed.

Definition in_period (t : nat) (row : string -> cell) : bool :=
  match row "period" with CInt s => s =? t | _ => false end.

(** A table of states with one row per period and individual. *)
Definition regular (md : model_dict) (n n_obs : nat) (tb : table) : Prop :=
  tb_columns tb = latent_of md ++ ["period"; "id"] /\ length (tb_rows tb) = n * n_obs /\
  forall t i, t < n -> i < n_obs -> exists row,
    nth_error (tb_rows tb) (t * n_obs + i) = Some row /\
    row "period" = CInt t /\ row "id" = CInt i /\
    forall g, In g (latent_of md) -> exists x, row g = CNum x.

Lemma anchored_regular md n n_obs recs params tb tb' :
  ~ In "period" (latent_of md) -> ~ In "id" (latent_of md) ->
  is_filtered_table md n n_obs recs tb -> is_anchored_table md params tb tb' ->
  regular md n n_obs tb'.
Proof.
  intros Hper Hid (Hc & Hl & Hrows) (Hc' & Hl' & Hrows').
  split; [congruence|]. split; [congruence|]. intros t i Ht Hi.
  destruct (Hrows t i Ht Hi) as (row & k & rec & H1 & H2 & H3 & _ & _ & Hav).
  destruct (Hrows' _ _ H1) as (row' & K1 & K2 & K3). exists row'. split; [exact K1|].
  rewrite (K2 "period" Hper), (K2 "id" Hid). repeat (split; [assumption|]).
  intros g Hg. destruct (K3 t g H2 Hg) as (s & c & _ & _ & Hx).
  apply In_nth_error in Hg as [j Hj]. eexists. apply Hx. rewrite (Hav j g Hj). reflexivity.
Qed.

Lemma regular_block md n n_obs tb t : regular md n n_obs tb -> t < n ->
  length (filter (in_period t) (tb_rows tb)) = n_obs /\
  forall i row, nth_error (filter (in_period t) (tb_rows tb)) i = Some row ->
    row "period" = CInt t /\ row "id" = CInt i /\ i < n_obs /\
    (forall g, In g (latent_of md) -> exists x, row g = CNum x).
Proof.
  intros (Hc & Hl & Hrows) Ht.
  assert (E : filter (in_period t) (tb_rows tb) = firstn n_obs (skipn (t * n_obs) (tb_rows tb))).
  { apply (filter_block (fun row t => in_period t row) n n_obs); [exact Ht|exact Hl|].
    intros s i x Hs Hi Hx. destruct (Hrows s i Hs Hi) as (row & H1 & H2 & _). rewrite Hx in H1.
    injection H1 as <-. unfold in_period. now rewrite H2. }
  rewrite E. assert (Elen : length (firstn n_obs (skipn (t * n_obs) (tb_rows tb))) = n_obs).
  { rewrite firstn_length, skipn_length, Hl. nia. }
  split; [exact Elen|]. intros i row Hi.
  assert (Hlt : i < n_obs). { rewrite <- Elen. apply nth_error_Some. congruence. }
  rewrite nth_error_first, nth_error_skipn in Hi by exact Hlt.
  destruct (Hrows t i Ht Hlt) as (row' & H1 & H2 & H3 & H4). rewrite Hi in H1. injection H1 as <-. auto.
Qed.

(** ** The merged table *)

Lemma position_of_nth l j g : NoDup l -> nth_error l j = Some g -> position_of g l = Some j.
Proof.
  intros Hnd. revert j. induction Hnd as [|x l Hx Hnd IH]; intros [|j] Hj; try discriminate.
  - injection Hj as ->. simpl. now rewrite String.eqb_refl.
  - simpl in *. destruct (String.eqb_spec g x) as [E|E].
    + subst. apply nth_error_In in Hj. contradiction.
    + now rewrite (IH j Hj).
Qed.

Lemma position_of_none l g : ~ In g l -> position_of g l = None.
Proof.
  induction l as [|x l IH]; intros H; [reflexivity|]. simpl.
  destruct (String.eqb_spec g x) as [E|E]; [exfalso; apply H; left; congruence|].
  rewrite IH; [reflexivity|]. intros Hi. apply H. now right.
Qed.

Definition merge_row (t : nat) (names : list string) (observed : list (list (option R)))
    (row : string -> cell) : string -> cell :=
  fun c => match position_of c names with
           | None => row c
           | Some j =>
               match row "id", row "period" with
               | CInt i, CInt s =>
                   if s =? t
                   then match nth_error observed i with
                        | Some r => match nth j r None with Some x => CNum x | None => CNan end
                        | None => CNan
                        end
                   else CNan
               | _, _ => CNan
               end
           end.

Lemma merge_rows states t names observed :
  tb_rows (merge_observed states t names observed) = map (merge_row t names observed) (tb_rows states).
Proof. reflexivity. Qed.

Lemma filter_map_swap {A B} (f : B -> bool) (g : A -> bool) (h : A -> B) l :
  (forall x, f (h x) = g x) -> filter f (map h l) = map h (filter g l).
Proof.
  intros H. induction l as [|x l IH]; [reflexivity|]. simpl. rewrite H, IH. now destruct (g x).
Qed.

Lemma period_rows_ok tb t factors : (forall g, In g factors -> In g (tb_columns tb)) ->
  period_rows tb t factors = Ok (filter (in_period t) (tb_rows tb)).
Proof.
  intros H. unfold period_rows.
  assert (E : forallb (fun f => smem f (tb_columns tb)) factors = true).
  { apply forallb_forall. intros g Hg. apply smem_In. auto. }
  rewrite E. reflexivity.
Qed.

(** ** The values of the factors *)

Section Data.
  Variables (md : model_dict) (ar : arrays R) (n n_obs t : nat) (states : table).
  Hypothesis Hnd : NoDup (latent_of md ++ observed_of md).
  Hypothesis Hper : ~ In "period" (latent_of md ++ observed_of md).
  Hypothesis Hid : ~ In "id" (latent_of md ++ observed_of md).
  Hypothesis Hreg : regular md n n_obs states.
  Hypothesis Ht : t < n.
  Hypothesis Hpos : 0 < n_obs.
  Hypothesis Hobs : observed_of md <> [] -> length (nth t (ar_observed ar) []) = n_obs.

  Definition the_data : table := merge_observed states t (observed_of md) (nth t (ar_observed ar) []).
  Definition the_rows : list (string -> cell) := filter (in_period t) (tb_rows the_data).

  Lemma the_rows_eq :
    the_rows = map (merge_row t (observed_of md) (nth t (ar_observed ar) []))
                 (filter (in_period t) (tb_rows states)).
  Proof.
    unfold the_rows, the_data. rewrite merge_rows. apply filter_map_swap. intros row.
    unfold in_period, merge_row. rewrite position_of_none; [reflexivity|].
    intros H. apply Hper. apply in_or_app. now right.
  Qed.

  Lemma the_rows_length : length the_rows = n_obs.
  Proof. rewrite the_rows_eq, map_length. now apply (regular_block md n n_obs). Qed.

  Lemma latent_not_observed g : In g (latent_of md) -> ~ In g (observed_of md).
  Proof.
    intros H1 H2. apply In_nth_error in H1 as [i Hi]. apply In_nth_error in H2 as [j Hj].
    assert (Hl : i < length (latent_of md)) by (apply nth_error_Some; congruence).
    assert (E1 : nth_error (latent_of md ++ observed_of md) i = Some g) by (now rewrite nth_error_app1).
    assert (E2 : nth_error (latent_of md ++ observed_of md) (length (latent_of md) + j) = Some g).
    { rewrite nth_error_app2 by lia. replace (length (latent_of md) + j - length (latent_of md)) with j by lia. exact Hj. }
    rewrite NoDup_nth_error in Hnd.
    assert (i = length (latent_of md) + j).
    { apply Hnd; [rewrite app_length; lia|congruence]. }
    lia.
  Qed.

  Lemma observed_nodup : NoDup (observed_of md).
  Proof. clear -Hnd. induction (latent_of md) as [|x l IH]; [exact Hnd|]. inversion Hnd. auto. Qed.

  Lemma the_data_period row : In row (tb_rows the_data) -> exists s, row "period" = CInt s.
  Proof.
    unfold the_data. rewrite merge_rows. intros H. apply in_map_iff in H as (row0 & <- & H0).
    destruct Hreg as (_ & Hl & Hrows). apply In_nth_error in H0 as [q Hq].
    assert (Hlt : q < n * n_obs). { rewrite <- Hl. apply nth_error_Some. congruence. }
    destruct (Hrows (q / n_obs) (q mod n_obs)) as (row' & Hr' & Hp' & _).
    { apply Nat.div_lt_upper_bound; lia. } { apply Nat.mod_upper_bound. lia. }
    replace (q / n_obs * n_obs + q mod n_obs) with q in Hr'
      by (rewrite Nat.mul_comm; apply Nat.div_mod; lia).
    rewrite Hq in Hr'. injection Hr' as <-. exists (q / n_obs).
    unfold merge_row. rewrite position_of_none; [exact Hp'|].
    intros H. apply Hper. apply in_or_app. now right.
  Qed.

  Lemma the_data_columns g : In g (latent_of md ++ observed_of md) -> In g (tb_columns the_data).
  Proof.
    unfold the_data, merge_observed. cbn [tb_columns]. destruct Hreg as (-> & _). rewrite !in_app_iff. tauto.
  Qed.

  Lemma the_data_period_column : In "period" (tb_columns the_data).
  Proof.
    unfold the_data, merge_observed. cbn [tb_columns]. destruct Hreg as (-> & _).
    rewrite !in_app_iff. left. right. now left.
  Qed.

  (** A cell of the merged rows. *)
  Lemma latent_cell g : In g (latent_of md) ->
    values_of the_rows g = map number_of (cells_of_period states t g).
  Proof.
    intros Hg. rewrite the_rows_eq. unfold values_of, cells_of_period. rewrite !map_map.
    apply map_ext. intros row. unfold merge_row. rewrite position_of_none; [reflexivity|].
    now apply latent_not_observed.
  Qed.

  Lemma observed_cell g j : nth_error (observed_of md) j = Some g ->
    values_of the_rows g = map (fun row => nth j row None) (nth t (ar_observed ar) []).
  Proof.
    intros Hj. rewrite the_rows_eq. unfold values_of. rewrite map_map.
    destruct (regular_block md n n_obs states t Hreg Ht) as [Hl Hrow].
    set (rows := filter (in_period t) (tb_rows states)) in *.
    assert (Ho : length (nth t (ar_observed ar) []) = n_obs).
    { apply Hobs. intros E. rewrite E in Hj. destruct j; discriminate. }
    apply (nth_ext _ _ None None); [rewrite !map_length; congruence|].
    rewrite map_length. intros k Hk.
    destruct (nth_error rows k) as [row|] eqn:Er; [|apply nth_error_None in Er; lia].
    destruct (nth_error (nth t (ar_observed ar) []) k) as [orow|] eqn:Eo; [|apply nth_error_None in Eo; lia].
    rewrite (nth_of_nth_error _ _ _ None (map_nth_error _ _ _ Er)).
    rewrite (nth_of_nth_error _ _ _ None (map_nth_error _ _ _ Eo)).
    destruct (Hrow k row Er) as (H1 & H2 & _ & _). unfold merge_row.
    rewrite (position_of_nth _ _ _ observed_nodup Hj), H1, H2, Nat.eqb_refl, Eo.
    now destruct (nth j orow None).
  Qed.

  Lemma period_values_rows g : In g (latent_of md ++ observed_of md) ->
    period_values md ar states t g (numbers (values_of the_rows g)).
  Proof.
    intros Hg. apply in_app_or in Hg as [Hg|Hg].
    - rewrite (latent_cell g Hg). now constructor.
    - apply In_nth_error in Hg as [j Hj]. rewrite (observed_cell g j Hj). now constructor.
  Qed.

  Lemma period_values_inv g xs : period_values md ar states t g xs ->
    xs = numbers (values_of the_rows g).
  Proof.
    intros [g' Hg|g' j Hj]; [now rewrite latent_cell|now rewrite (observed_cell g' j Hj)].
  Qed.

  (** Latent factors have values. *)
  Lemma latent_numbers g : In g (latent_of md) -> numbers (values_of the_rows g) <> [].
  Proof.
    intros Hg. rewrite the_rows_eq. destruct (regular_block md n n_obs states t Hreg Ht) as [Hl Hrow].
    destruct (filter (in_period t) (tb_rows states)) as [|row rows]; [simpl in Hl; lia|].
    destruct (Hrow 0 row eq_refl) as (_ & _ & _ & Hx). destruct (Hx g Hg) as [x E].
    cbn [map values_of]. unfold merge_row at 1.
    rewrite position_of_none by (now apply latent_not_observed). rewrite E. discriminate.
  Qed.

  (** Values of individuals. *)
  Lemma individual_cell i g row : In g (latent_of md ++ observed_of md) ->
    nth_error the_rows i = Some row ->
    (forall x, number_of (row g) = Some x -> individual_value md ar states t i g x) /\
    (forall x, individual_value md ar states t i g x -> number_of (row g) = Some x).
  Proof.
    intros Hg Hrow. rewrite the_rows_eq, nth_error_map in Hrow.
    destruct (nth_error (filter (in_period t) (tb_rows states)) i) as [row0|] eqn:E0; [|discriminate].
    injection Hrow as <-.
    destruct (regular_block md n n_obs states t Hreg Ht) as [Hl Hblock].
    destruct (Hblock i row0 E0) as (H1 & H2 & Hi & H4).
    apply in_app_or in Hg as [Hg|Hg].
    - pose proof (latent_not_observed g Hg) as Hno. unfold merge_row. rewrite position_of_none by exact Hno.
      destruct (H4 g Hg) as [x0 Ex]. rewrite Ex. cbn [number_of]. split.
      + intros x [= <-]. apply (latent_value _ _ _ _ _ g row0); auto.
        apply nth_error_In in E0. now apply filter_In in E0.
      + intros x Hx. destruct Hx as [g row x _ Hin Hp Hi' Hc|g j row x Hj _ _].
        2:{ apply nth_error_In in Hj. contradiction. }
        assert (Hin' : In row (filter (in_period t) (tb_rows states))).
        { apply filter_In. split; [exact Hin|]. unfold in_period. now rewrite Hp, Nat.eqb_refl. }
        apply In_nth_error in Hin' as [i' Ei']. destruct (Hblock i' row Ei') as (_ & H2' & _ & _).
        assert (i' = i) by congruence. subst i'. congruence.
    - apply In_nth_error in Hg as [j Hj]. unfold merge_row.
      rewrite (position_of_nth _ _ _ observed_nodup Hj), H1, H2, Nat.eqb_refl.
      assert (Ho : length (nth t (ar_observed ar) []) = n_obs).
      { apply Hobs. intros E. rewrite E in Hj. destruct j; discriminate. }
      destruct (nth_error (nth t (ar_observed ar) []) i) as [orow|] eqn:Eo; [|apply nth_error_None in Eo; lia].
      split.
      + intros x Hx. apply (observed_value _ _ _ _ _ g j orow); auto.
        destruct (nth j orow None); [exact Hx|discriminate].
      + intros x Hx. destruct Hx as [g row x Hg _ _ _ _|g j' row x Hj' Hr Hc].
        { exfalso. apply (latent_not_observed g Hg). now apply nth_error_In in Hj. }
        assert (j' = j).
        { pose proof observed_nodup as H. rewrite NoDup_nth_error in H. apply H; [|congruence].
          apply nth_error_Some. congruence. }
        subst j'. rewrite Hr in Eo. injection Eo as <-. now rewrite Hc.
  Qed.

  (** ** Limits of the axes *)

  Lemma in_cells_numbers g x :
    in_cells (cells_of_period the_data t g) x <-> In x (numbers (values_of the_rows g)).
  Proof.
    unfold in_cells, cells_of_period, numbers, values_of. fold (in_period t). fold the_rows.
    rewrite in_flat_map. split.
    - intros (c & Hc & E). apply in_map_iff in Hc as (row & <- & Hr). exists (Some x). split; [|now left].
      apply in_map_iff. exists row. auto.
    - intros (o & Ho & Hx). apply in_map_iff in Ho as (row & <- & Hr).
      destruct (number_of (row g)) as [y|] eqn:E; [|destruct Hx]. destruct Hx as [->|[]].
      exists (row g). split; [|exact E]. apply in_map_iff. exists row. auto.
  Qed.

  Lemma default_ranges : exists ranges,
    create_state_ranges the_data (latent_of md ++ observed_of md) = Ok ranges /\
    forall g, In g (latent_of md ++ observed_of md) -> numbers (values_of the_rows g) <> [] ->
    exists lo hi, state_range ranges g t = Ok (Some lo, Some hi) /\
      axis_limits None (numbers (values_of the_rows g)) t g lo hi.
  Proof.
    destruct (C50_ranges_exist the_data (latent_of md ++ observed_of md)) as [ranges Hr].
    { exact the_data_period_column. } { exact the_data_period. }
    { intros g Hg. split; [now apply the_data_columns|]. intros ->. contradiction. }
    exists ranges. split; [exact Hr|]. intros g Hg Hne.
    destruct (C50_ranges _ _ _ Hr) as [Hkeys Hrows].
    assert (Hin : In g (map fst ranges)) by (rewrite Hkeys; exact Hg).
    apply in_map_iff in Hin as ([g' rows] & Eg & Hin). cbn [fst] in Eg. subst g'.
    destruct (Hrows g rows Hin) as (Hsort & Hper' & Hmin).
    assert (Hdget : dget ranges g = Some rows).
    { apply In_dget; [|exact Hin]. unfold dkeys. rewrite Hkeys. exact Hnd. }
    assert (Htin : In t (map fst rows)).
    { apply Hper'. pose proof the_rows_length as Hl. destruct the_rows as [|row rs] eqn:E; [simpl in Hl; lia|].
      assert (Hrow : In row the_rows) by (rewrite E; now left). unfold the_rows in Hrow.
      apply filter_In in Hrow as [H1 H2]. exists row. split; [exact H1|].
      unfold in_period in H2. destruct (row "period") as [ |s| | ]; try discriminate.
      apply Nat.eqb_eq in H2. congruence. }
    unfold state_range, dget_err. rewrite Hdget. cbn [rbind].
    destruct (find (fun r => fst r =? t) rows) as [[s [olo ohi]]|] eqn:Ef.
    2:{ apply in_map_iff in Htin as ([s lh] & Es & Hs). pose proof (find_none _ _ Ef _ Hs) as F.
        cbn [fst] in *. subst s. rewrite Nat.eqb_refl in F. discriminate. }
    apply find_some in Ef as [Ef Es]. cbn [fst] in Es. apply Nat.eqb_eq in Es. subst s.
    destruct (Hmin t olo ohi Ef) as [Hlo Hhi].
    assert (Hx : exists x, In x (numbers (values_of the_rows g))).
    { destruct (numbers (values_of the_rows g)) as [|x l]; [contradiction|]. exists x. now left. }
    destruct Hx as [x0 Hx0]. apply in_cells_numbers in Hx0.
    destruct olo as [lo|]; [|exfalso; exact (Hlo x0 Hx0)]. destruct ohi as [hi|]; [|exfalso; exact (Hhi x0 Hx0)].
    exists lo, hi. split; [reflexivity|]. destruct Hlo as [L1 L2], Hhi as [U1 U2]. cbn [axis_limits].
    split; [now apply in_cells_numbers|]. split; [now apply in_cells_numbers|].
    intros x Hx. apply in_cells_numbers in Hx. auto.
  Qed.
End Data.

(** Limits from the user. *)
Lemma user_range (r : state_ranges) g t rows lo hi : dget r g = Some rows -> NoDup (map fst rows) ->
  In (t, (Some lo, Some hi)) rows -> state_range r g t = Ok (Some lo, Some hi).
Proof.
  intros Hd Hn Hin. unfold state_range, dget_err. rewrite Hd. cbn [rbind].
  destruct (find (fun r => fst r =? t) rows) as [[s lh]|] eqn:Ef.
  - apply find_some in Ef as [Ef Es]. cbn [fst] in Es. apply Nat.eqb_eq in Es. subst s. cbn [snd].
    assert (E : lh = (Some lo, Some hi)); [|now rewrite E].
    clear -Hn Hin Ef. induction rows as [|[s x] rows IH]; [destruct Hin|].
    cbn [map fst] in Hn. inversion Hn as [|? ? Hni Hnd']; subst. destruct Hin as [E1|Hin], Ef as [E2|Ef].
    + congruence.
    + exfalso. apply Hni. apply in_map_iff. exists (t, lh). split; [|exact Ef]. cbn [fst]. congruence.
    + exfalso. apply Hni. apply in_map_iff. exists (t, (Some lo, Some hi)). split; [|exact Hin]. cbn [fst]. congruence.
    + auto.
  - pose proof (find_none _ _ Ef _ Hin) as F. cbn [fst] in F. rewrite Nat.eqb_refl in F. discriminate.
Qed.

(** ** The transition equation *)

Lemma individual_function_local nan neg_inf custom md l f c c' states : dget c f = dget c' f ->
  individual_function nan neg_inf custom md l f c states = individual_function nan neg_inf custom md l f c' states.
Proof.
  intros H. unfold individual_function. destruct (dget_err (md_factors md) f) as [fs|e]; [|reflexivity].
  cbn [rbind]. unfold next_state, dget_err. now rewrite H.
Qed.

Section Transition.
  Variables nan neg_inf : R.
  Variable custom : string -> dict R -> dict R -> list R -> result R.
  Hypothesis Hcustom : total_custom custom.
  Variables (md : model_dict) (p : processed) (n : nat) (vec : list R) (params : list (label * R)) (ps : parsed R) (n_obs : nat).
  Hypothesis Hwf : wf_dicts md.
  Hypothesis Hg : good_names md.
  Hypothesis Hp : process_model md = Ok p.
  Hypothesis Hn : has_n_periods md n.
  Hypothesis Hlen : length vec = length (params_index_of p).
  Hypothesis Hps : parse_for 0%R 1%R ln p vec n_obs = Ok ps.
  Hypothesis Hcomp : complete_params p params.
  Hypothesis Hvals : forall lb x, labelled (params_index_of p) vec lb x -> has_value params lb x.

  Let all := latent_of md ++ observed_of md.

  Lemma has_value_labelled lb x : In lb (params_index_of p) -> has_value params lb x ->
    labelled (params_index_of p) vec lb x.
  Proof.
    intros Hlb Hx. pose proof (idx_NoDup md p Hwf Hg Hp) as Hnd.
    assert (Hl : labelled (params_index_of p) vec lb (val_of 0%R (params_index_of p) vec lb)).
    { rewrite (val_of_map 0%R (params_index_of p) vec Hnd Hlen) at 1. now apply labelled_values. }
    pose proof (Hvals _ _ Hl) as Hv.
    apply (proj2 (row_value_In params lb _ (proj1 Hcomp))) in Hx.
    apply (proj2 (row_value_In params lb _ (proj1 Hcomp))) in Hv.
    assert (x = val_of 0%R (params_index_of p) vec lb) by congruence. now subst x.
  Qed.

  Lemma plot_transition t o fs : t + 1 < n -> In (o, fs) (md_factors md) ->
    exists coeffs row, dget_err (ps_transition ps) o = Ok coeffs /\ nth_err coeffs t = Ok row /\
      forall state,
        (exists y, individual_function nan neg_inf custom md (p_labels p) o [(o, row)] (map state all) = Ok y) /\
        forall y, individual_function nan neg_inf custom md (p_labels p) o [(o, row)] (map state all) = Ok y ->
          next_value md custom params t o state y.
  Proof.
    intros Ht Hin.
    destruct (C11_transition_parameters R 0%R 1%R ln md p n n_obs vec ps Hwf (idx_NoDup md p Hwf Hg Hp) Hp Hn Hlen Hps) as [_ H].
    destruct (H o fs Hin) as (coeffs & Hd & [Hl _] & _).
    destruct (nth_error coeffs t) as [row|] eqn:Er; [|apply nth_error_None in Er; lia].
    exists coeffs, row. unfold dget_err. rewrite Hd. split; [reflexivity|].
    unfold nth_err. rewrite Er. split; [reflexivity|]. intros state.
    set (ar := mk_arrays [] [] [] : arrays R).
    assert (Ec : dget (in_coeffs (inputs_of ps ar) t) o = Some row).
    { cbn [inputs_of in_coeffs]. clear -Hd Er. induction (ps_transition ps) as [|[g c] l IH]; [discriminate|].
      cbn [dget map fst snd] in *. destruct (String.eqb o g); [|auto]. injection Hd as ->.
      now rewrite (nth_of_nth_error _ _ _ [] Er). }
    assert (Eind : forall st, individual_function nan neg_inf custom md (p_labels p) o [(o, row)] st
                   = individual_function nan neg_inf custom md (p_labels p) o (in_coeffs (inputs_of ps ar) t) st).
    { intros st. apply individual_function_local. rewrite Ec. simpl. now rewrite String.eqb_refl. }
    assert (Ho : In o (latent_of md)). { apply in_map_iff. exists (o, fs). auto. }
    apply In_nth_error in Ho as [j Hj].
    set (r := fun k => nth k (map state all) 0%R).
    assert (Emap : map state all = map r (seq 0 (length (l_all (p_labels p))))).
    { rewrite (all_eq md p Hp). fold all. unfold r. symmetry.
      apply (nth_ext _ _ 0%R 0%R); [now rewrite !map_length, seq_length|].
      rewrite map_length, seq_length. intros k Hk.
      rewrite (nth_indep _ 0%R (nth 0 (map state all) 0%R)) by (now rewrite map_length, seq_length).
      rewrite (map_nth (fun k => nth k (map state all) 0%R)), seq_nth by exact Hk. reflexivity. }
    pose proof (C57_individual_functions nan neg_inf custom Hcustom md p n n_obs vec ps ar Hwf Hg Hp Hn Hlen Hps
                  t r j o Ht Hj) as Hf.
    rewrite <- Emap, <- Eind in Hf. rewrite Hf. split; [eauto|]. intros y [= <-].
    exists fs. split; [exact Hin|]. cbv zeta. fold all. intros beta Hbeta.
    destruct (C57_model_transition nan neg_inf custom Hcustom md p n n_obs vec ps ar Hwf Hg Hp Hn Hlen Hps
                t j o fs r beta state Ht Hj Hin) as [H1 H2].
    { intros name Hname. apply has_value_labelled; [|now apply Hbeta].
      apply (proj1 (C08_index_contents md p Hwf Hp)). now apply (par_transition _ t n o fs). }
    { intros k g Hk. fold all in Hk. unfold r. now rewrite (nth_of_nth_error _ _ _ 0%R (map_nth_error state _ _ Hk)). }
    split; [exact H1|]. intros fn names Es. destruct (H2 fn names Es) as (args & env & K1 & K2 & K3).
    exists args, env. split; [exact K1|]. split; [exact K2|]. rewrite Emap.
    rewrite (all_eq md p Hp). exact K3.
  Qed.
End Transition.
