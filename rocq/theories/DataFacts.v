(** Facts about the model of process_data.py. *)
Require Import String Arith ZArith Bool List Lia Sorted Permutation.
From Verif Require Import PyBase ListFacts ModelSpec ProcessModel CheckModel SpecModel AcceptFacts
  ProcessData SpecParse SpecData.
Import ListNotations.
Open Scope string_scope.
Open Scope list_scope.
Open Scope nat_scope.

(** ** Codes *)
Lemma code_of_nth z lv : In z lv -> nth_error lv (code_of z lv) = Some z.
Proof.
  induction lv as [|x lv IH]; [intros []|]. intros H. simpl.
  destruct (Z.eqb_spec z x) as [->|Hne]; [reflexivity|]. simpl. apply IH.
  destruct H as [->|H]; [contradiction|exact H].
Qed.

Lemma code_of_inj z z' lv : In z lv -> In z' lv -> code_of z lv = code_of z' lv -> z = z'.
Proof.
  intros H H' E. apply code_of_nth in H, H'. rewrite E in H. congruence.
Qed.

Lemma zsorted_NoDup l : StronglySorted Z.lt l -> NoDup l.
Proof.
  induction 1 as [|x l Hs IH Hf]; [constructor|]. constructor; [|exact IH].
  intros Hin. rewrite Forall_forall in Hf. specialize (Hf _ Hin). lia.
Qed.

Lemma code_of_at lv t z : NoDup lv -> nth_error lv t = Some z -> code_of z lv = t.
Proof.
  intros Hnd H. assert (Hin : In z lv) by (eapply nth_error_In; eauto).
  apply (NoDup_nth_error lv); [exact Hnd| |].
  - apply nth_error_Some. rewrite (code_of_nth z lv Hin). discriminate.
  - rewrite (code_of_nth z lv Hin). now rewrite H.
Qed.

Lemma code_of_lt z z' lv :
  StronglySorted Z.lt lv -> In z lv -> In z' lv -> (z < z')%Z -> code_of z lv < code_of z' lv.
Proof.
  induction 1 as [|x lv Hs IH Hf]; [intros []|]. intros H H' Hlt. simpl.
  rewrite Forall_forall in Hf.
  destruct (Z.eqb_spec z x) as [->|Hne], (Z.eqb_spec z' x) as [->|Hne'].
  - lia.
  - lia.
  - destruct H as [->|H]; [contradiction|]. specialize (Hf _ H). lia.
  - destruct H as [->|H]; [contradiction|]. destruct H' as [->|H']; [contradiction|].
    apply -> Nat.succ_lt_mono. now apply IH.
Qed.

(** ** Sorting *)
Lemma ninsert_In x y l : In y (ninsert x l) <-> y = x \/ In y l.
Proof.
  induction l as [|z l IH]; simpl; [intuition|].
  destruct (Nat.eqb_spec x z) as [->|]; simpl; [intuition congruence|].
  destruct (x <? z); simpl; [intuition congruence|]. rewrite IH. intuition congruence.
Qed.

Lemma ninsert_sorted x l : StronglySorted lt l -> StronglySorted lt (ninsert x l).
Proof.
  induction 1 as [|z l Hs IH Hf]; simpl; [repeat constructor|].
  destruct (Nat.eqb_spec x z) as [->|Hne]; [now constructor|].
  destruct (Nat.ltb_spec x z).
  - constructor; [now constructor|]. constructor; [assumption|].
    eapply Forall_impl; [|exact Hf]. simpl. intros; lia.
  - constructor; [exact IH|]. rewrite Forall_forall in *. intros y Hy.
    apply ninsert_In in Hy as [->|Hy]; [lia|now apply Hf].
Qed.

Lemma nsort_unique_In y l : In y (nsort_unique l) <-> In y l.
Proof.
  unfold nsort_unique. induction l as [|x l IH]; simpl; [tauto|].
  rewrite ninsert_In, IH. intuition congruence.
Qed.

Lemma nsort_unique_sorted l : StronglySorted lt (nsort_unique l).
Proof.
  unfold nsort_unique. induction l as [|x l IH]; simpl; [constructor|now apply ninsert_sorted].
Qed.

Lemma nsorted_unique l1 l2 :
  StronglySorted lt l1 -> StronglySorted lt l2 -> (forall x, In x l1 <-> In x l2) -> l1 = l2.
Proof.
  intros H1. revert l2. induction H1 as [|x l1 Hs IH Hf]; intros l2 H2 Heq.
  - destruct l2 as [|y l2]; [reflexivity|]. exfalso. apply (proj2 (Heq y)). now left.
  - destruct H2 as [|y l2 Hs2 Hf2]; [exfalso; apply (proj1 (Heq x)); now left|].
    rewrite Forall_forall in Hf, Hf2.
    assert (x = y).
    { destruct (proj1 (Heq x)) as [E|E]; [now left|congruence|].
      destruct (proj2 (Heq y)) as [E'|E']; [now left|congruence|].
      specialize (Hf _ E'). specialize (Hf2 _ E). lia. }
    subst y. f_equal. apply IH; [assumption|]. intros z. split; intros Hz.
    + destruct (proj1 (Heq z)) as [E|E]; [now right| |assumption].
      subst z. specialize (Hf _ Hz). lia.
    + destruct (proj2 (Heq z)) as [E|E]; [now right| |assumption].
      subst z. specialize (Hf2 _ Hz). lia.
Qed.

Lemma ascending_zsort l : ascending (zsort_unique l) (fun z => In z l).
Proof. split; [apply zsort_unique_sorted|intros z; apply zsort_unique_In]. Qed.

Lemma ascending_fun v1 v2 (P : Z -> Prop) : ascending v1 P -> ascending v2 P -> v1 = v2.
Proof.
  intros [S1 H1] [S2 H2]. apply zsorted_unique; [assumption..|]. intros z.
  now rewrite H1, H2.
Qed.

Section Facts.
  Context {V : Type}.
  Variable one : V.
  Variable veqb : V -> V -> bool.
  Hypothesis veqb_spec : forall x y, veqb x y = true <-> x = y.
  Implicit Types (df : frame V) (r : drow V) (q : prow V).

  Lemma insert_row_perm r l : Permutation (insert_row r l) (r :: l).
  Proof.
    induction l as [|x l IH]; simpl; [reflexivity|].
    destruct (row_leb r x); [reflexivity|]. rewrite IH. apply perm_swap.
  Qed.

  Lemma sort_rows_perm (l : list (drow V)) : Permutation (sort_rows l) l.
  Proof.
    unfold sort_rows. induction l as [|x l IH]; simpl; [reflexivity|].
    rewrite insert_row_perm. now constructor.
  Qed.

  Lemma In_sort_rows r l : In r (sort_rows l) <-> In r l.
  Proof.
    split; intros H.
    - eapply Permutation_in; [apply sort_rows_perm|exact H].
    - eapply Permutation_in; [apply Permutation_sym, sort_rows_perm|exact H].
  Qed.

  (** ** Duplicates *)
  Definition pkey q : nat * nat := (pr_id q, pr_period q).

  Lemma pkey_eqb_spec i t q : pkey_eqb i t q = true <-> pkey q = (i, t).
  Proof.
    unfold pkey_eqb, pkey. rewrite andb_true_iff, !Nat.eqb_eq. split; [intros [-> ->]|intros [= -> ->]]; auto.
  Qed.

  Lemma has_dup_key_spec (l : list (prow V)) : has_dup_key l = false <-> NoDup (map pkey l).
  Proof.
    induction l as [|q l IH]; simpl; [split; [constructor|reflexivity]|].
    rewrite orb_false_iff, IH. rewrite NoDup_cons_iff. apply and_iff_compat_r.
    rewrite <- not_true_iff_false, existsb_exists. apply not_iff_compat.
    rewrite in_map_iff. split; intros (y & H1 & H2).
    - exists y. split; [now apply pkey_eqb_spec in H2|assumption].
    - exists y. split; [assumption|]. apply pkey_eqb_spec. exact H1.
  Qed.

  Lemma find_unique {A B} (key : A -> B) (P : A -> bool) k l x :
    (forall y, P y = true <-> key y = k) -> NoDup (map key l) -> In x l -> key x = k ->
    find P l = Some x.
  Proof.
    intros HP Hnd Hin Hk. induction l as [|y l IH]; [destruct Hin|].
    simpl in *. inversion Hnd as [|? ? Hn Hnd']; subst.
    destruct (P y) eqn:E.
    - f_equal. destruct Hin as [->|Hin]; [reflexivity|].
      apply HP in E. exfalso. apply Hn. rewrite E. now apply in_map.
    - destruct Hin as [->|Hin]; [|now apply IH].
      rewrite (proj2 (HP x) eq_refl) in E. discriminate.
  Qed.

  Section Frame.
    Variable df : frame V.
    Variables ids lv : list Z.
    Hypothesis Hwf : wf_frame df.
    Hypothesis Hids : ids_of df ids.
    Hypothesis Hlv : levels_of df lv.
    Let ilv := zsort_unique (fr_id_level df).

    Definition enc r : prow V := mk_prow (code_of (dr_id r) ilv) (code_of (dr_period r) lv) (dr_cells r).

    Lemma lv_eq : zsort_unique (fr_period_level df) = lv.
    Proof. eapply ascending_fun; [apply ascending_zsort|exact Hlv]. Qed.

    Lemma encode_eq : encode df = map enc (sort_rows (fr_rows df)).
    Proof. unfold encode. now rewrite lv_eq. Qed.

    Lemma lv_NoDup : NoDup lv.
    Proof. apply zsorted_NoDup, Hlv. Qed.

    Lemma ids_in_ilv z : In z ids -> In z ilv.
    Proof.
      intros H. apply Hids in H as (r & Hr & <-). apply zsort_unique_In. now apply Hwf.
    Qed.

    Lemma row_period_in r : In r (fr_rows df) -> In (dr_period r) lv.
    Proof. intros H. apply Hlv. now apply Hwf. Qed.

    Lemma row_id_in r : In r (fr_rows df) -> In (dr_id r) ilv.
    Proof. intros H. apply zsort_unique_In. now apply Hwf. Qed.

    Definition codes : list nat := map (fun z => code_of z ilv) ids.

    Lemma codes_sorted : StronglySorted lt codes.
    Proof.
      unfold codes. assert (Hin : forall z, In z ids -> In z ilv) by exact ids_in_ilv.
      destruct Hids as [Hs _]. clear - Hs Hin. revert Hin.
      induction Hs as [|x l Hs IH Hf]; intros Hin; simpl; constructor.
      - apply IH. intros z Hz. apply Hin. now right.
      - apply Forall_map. rewrite Forall_forall in *. intros z Hz.
        apply code_of_lt; [apply zsort_unique_sorted|apply Hin; now left|apply Hin; now right|].
        now apply Hf.
    Qed.

    Lemma codes_eq : nsort_unique (map pr_id (encode df)) = codes.
    Proof.
      apply nsorted_unique; [apply nsort_unique_sorted|apply codes_sorted|].
      intros k. rewrite nsort_unique_In. rewrite encode_eq, map_map. unfold codes.
      rewrite !in_map_iff. simpl. split.
      - intros (r & <- & Hr). exists (dr_id r). split; [reflexivity|]. apply Hids.
        exists r. split; [now apply In_sort_rows|reflexivity].
      - intros (z & <- & Hz). apply Hids in Hz as (r & Hr & <-). exists r.
        split; [reflexivity|now apply In_sort_rows].
    Qed.

    Definition key r : Z * Z := (dr_id r, dr_period r).

    Lemma encode_dup : has_dup_key (encode df) = false <-> unique_index df.
    Proof.
      rewrite has_dup_key_spec, encode_eq, map_map. unfold unique_index.
      assert (H : NoDup (map (fun r => pkey (enc r)) (sort_rows (fr_rows df))) <->
                  NoDup (map (fun r => pkey (enc r)) (fr_rows df))).
      { split; apply Permutation_NoDup; apply Permutation_map; [|apply Permutation_sym];
          apply sort_rows_perm. }
      rewrite H. clear H. unfold pkey, enc. simpl.
      assert (Hid : forall r, In r (fr_rows df) -> In (dr_id r) ilv /\ In (dr_period r) lv).
      { intros r Hr. split; [now apply row_id_in|now apply row_period_in]. }
      revert Hid. generalize (fr_rows df) as l. induction l as [|r l IH]; intros Hid.
      - split; constructor.
      - simpl. rewrite !NoDup_cons_iff. rewrite IH by (intros; apply Hid; now right).
        apply and_iff_compat_r. apply not_iff_compat. rewrite !in_map_iff.
        split; intros (r' & E & Hr'); exists r'; (split; [|exact Hr']).
        + injection E as E1 E2.
          apply code_of_inj in E1; [|apply Hid; now right|apply Hid; now left].
          apply code_of_inj in E2; [|apply Hid; now right|apply Hid; now left].
          congruence.
        + injection E as -> ->. reflexivity.
    Qed.

    (** A balanced panel. *)
    Definition grid (is : list nat) (n : nat) (C : nat -> nat -> string -> option V) : list (prow V) :=
      flat_map (fun i => map (fun t => mk_prow i t (C i t)) (range n)) is.

    Definition raw (i t : nat) : string -> option V :=
      match nth_error ilv i with Some id => raw_cells df lv id t | None => fun _ => None end.

    Lemma raw_code z t : In z ids -> raw (code_of z ilv) t = raw_cells df lv z t.
    Proof. intros H. unfold raw. rewrite code_of_nth; [reflexivity|now apply ids_in_ilv]. Qed.

    Lemma find_encode z t :
      unique_index df -> In z ids ->
      match find (pkey_eqb (code_of z ilv) t) (encode df) with
      | Some q => q
      | None => mk_prow (code_of z ilv) t (fun _ => None)
      end = mk_prow (code_of z ilv) t (raw_cells df lv z t).
    Proof.
      intros Huniq Hz. pose proof (proj2 encode_dup Huniq) as Hdup.
      apply has_dup_key_spec in Hdup.
      destruct (find (pkey_eqb (code_of z ilv) t) (encode df)) as [q|] eqn:E.
      - apply find_some in E as [Hin Hq]. apply pkey_eqb_spec in Hq.
        rewrite encode_eq in Hin. apply in_map_iff in Hin as (r & <- & Hr).
        apply (proj1 (In_sort_rows _ _)) in Hr. unfold pkey, enc in Hq. simpl in Hq. injection Hq as E1 E2.
        apply (code_of_inj (dr_id r) z ilv (row_id_in r Hr) (ids_in_ilv z Hz)) in E1.
        unfold enc. rewrite E2, E1. f_equal. unfold raw_cells.
        rewrite <- E2, (code_of_nth _ lv (row_period_in r Hr)).
        rewrite (find_unique key _ (z, dr_period r) (fr_rows df) r); [reflexivity| |exact Huniq|exact Hr|].
        + intros y. unfold key. rewrite andb_true_iff, !Z.eqb_eq.
          split; [intros [-> ->]; reflexivity|intros [= -> ->]; auto].
        + unfold key. congruence.
      - f_equal. unfold raw_cells. destruct (nth_error lv t) as [w|] eqn:Ew; [|reflexivity].
        destruct (find _ (fr_rows df)) as [r|] eqn:Er; [|reflexivity]. exfalso.
        apply find_some in Er as [Hr Hk]. apply andb_true_iff in Hk as [E1 E2].
        apply Z.eqb_eq in E1, E2.
        assert (Hin : In (enc r) (encode df)).
        { rewrite encode_eq. apply in_map. now apply In_sort_rows. }
        apply (find_none _ _ E) in Hin. rewrite <- not_true_iff_false in Hin. apply Hin.
        apply pkey_eqb_spec. unfold pkey, enc. simpl. rewrite E1, E2.
        now rewrite (code_of_at lv t w lv_NoDup Ew).
    Qed.

    Lemma pre_process_ok n :
      unique_index df -> pre_process_data df (range n) = Ok (grid codes n raw).
    Proof.
      intros Hu. unfold pre_process_data, reindex. rewrite (proj2 encode_dup Hu), codes_eq.
      f_equal. unfold grid, codes. rewrite !flat_map_map. apply flat_map_ext_in. intros z Hz.
      apply map_ext. intros t. rewrite (find_encode z t Hu Hz), (raw_code z t Hz). reflexivity.
    Qed.

    Lemma pre_process_dup ps : ~ unique_index df -> pre_process_data df ps = Err ValueError.
    Proof.
      intros Hu. unfold pre_process_data, reindex.
      destruct (has_dup_key (encode df)) eqn:E; [reflexivity|].
      exfalso. apply Hu. now apply encode_dup.
    Qed.
  End Frame.

  (** ** Grids *)
  Lemma map_grid is n C (g : nat -> nat -> (string -> option V) -> (string -> option V))
        (h : prow V -> prow V) :
    (forall i t c, h (mk_prow i t c) = mk_prow i t (g i t c)) ->
    map h (grid is n C) = grid is n (fun i t => g i t (C i t)).
  Proof.
    intros H. unfold grid. rewrite map_flat_map. apply flat_map_ext. intros i.
    rewrite map_map. apply map_ext. intros t. apply H.
  Qed.

  Lemma grid_length is n C : length (grid is n C) = length is * n.
  Proof.
    unfold grid. induction is as [|i is IH]; simpl; [reflexivity|].
    rewrite app_length, map_length, IH. unfold range. now rewrite seq_length.
  Qed.

  Lemma in_period_grid is n C t :
    t < n -> in_period t (grid is n C) = map (fun i => mk_prow i t (C i t)) is.
  Proof.
    intros Ht. unfold grid, in_period. rewrite filter_flat_map.
    transitivity (flat_map (fun i => [mk_prow i t (C i t)]) is).
    - apply flat_map_ext. intros i. rewrite filter_map_comm. simpl.
      assert (E : filter (fun x => x =? t) (range n) = [t]).
      { unfold range. assert (H : n = t + S (n - S t)) by lia. rewrite H at 1.
        rewrite seq_app, filter_app. simpl. rewrite Nat.eqb_refl.
        rewrite filter_none, filter_none; [reflexivity| |];
          intros x Hx; apply in_seq in Hx; apply Nat.eqb_neq; lia. }
      rewrite E. reflexivity.
    - induction is as [|i is IH]; simpl; [reflexivity|]. now rewrite IH.
  Qed.

  Lemma column_grid is n C t x :
    t < n -> column x (in_period t (grid is n C)) = map (fun i => C i t x) is.
  Proof. intros H. rewrite in_period_grid by exact H. unfold column. now rewrite map_map. Qed.

  (** ** Copies of the outcomes *)
  Definition set_fun (col : string) (x : option V) (c : string -> option V) : string -> option V :=
    fun y => if String.eqb y col then x else c y.

  Definition copies (outs : list (string * string)) (c : string -> option V) : string -> option V :=
    fold_left (fun c fo => set_fun (copy_name fo) (c (snd fo)) c) outs c.

  Lemma copies_other outs c x : ~ In x (map copy_name outs) -> copies outs c x = c x.
  Proof.
    revert c. induction outs as [|fo outs IH]; intros c H; [reflexivity|]. simpl in *.
    unfold copies in *. simpl. rewrite IH by tauto. unfold set_fun.
    destruct (String.eqb_spec x (copy_name fo)); [exfalso; apply H; left; congruence|reflexivity].
  Qed.

  Lemma copies_copy outs c fo :
    NoDup (map copy_name outs) -> (forall fo, In fo outs -> ~ In (snd fo) (map copy_name outs)) ->
    In fo outs -> copies outs c (copy_name fo) = c (snd fo).
  Proof.
    revert c. induction outs as [|fo' outs IH]; intros c Hnd Hcl Hin; [destruct Hin|].
    simpl in Hnd. inversion Hnd as [|? ? Hn Hnd']; subst.
    destruct Hin as [->|Hin].
    - change (copies (fo :: outs) c) with (copies outs (set_fun (copy_name fo) (c (snd fo)) c)).
      rewrite copies_other by exact Hn. unfold set_fun. now rewrite String.eqb_refl.
    - change (copies (fo' :: outs) c) with (copies outs (set_fun (copy_name fo') (c (snd fo')) c)).
      rewrite IH; [|exact Hnd'| |exact Hin].
      + unfold set_fun. destruct (String.eqb_spec (snd fo) (copy_name fo')) as [E|]; [|reflexivity].
        exfalso. apply (Hcl fo); [now right|]. left. congruence.
      + intros fo'' H'' Hc. apply (Hcl fo''); [now right|]. now right.
  Qed.

  Lemma copies_value md c x :
    clear_outcomes md ->
    copies (outcomes_of md) (set_fun "constant" (Some one) c) x = data_value one md c x.
  Proof.
    intros [Hnd Hcl]. unfold data_value.
    destruct (find (fun fo => String.eqb x (copy_name fo)) (outcomes_of md)) as [fo|] eqn:E.
    - apply find_some in E as [Hin Ex]. apply String.eqb_eq in Ex as ->.
      rewrite copies_copy; [|exact Hnd|intros; now apply Hcl|exact Hin].
      unfold set_fun. destruct (String.eqb_spec (snd fo) "constant") as [Ec|]; [|reflexivity].
      exfalso. exact (proj1 (Hcl fo Hin) Ec).
    - rewrite copies_other; [reflexivity|]. intros H. apply in_map_iff in H as (fo & <- & Hin).
      apply (find_none _ _ E) in Hin. rewrite String.eqb_refl in Hin. discriminate.
  Qed.

  Definition columns_after (outs : list (string * string)) (cols : list string) : list string :=
    rev (map copy_name outs) ++ cols.

  Lemma add_copies_ok a is n (outs : list (string * string)) cols C :
    (forall f o, In (f, o) outs -> dget (a_outcomes a) f = Some o) ->
    (forall fo, In fo outs -> In (snd fo) cols) ->
    add_copies a (map fst outs) cols (grid is n C) =
    Ok (columns_after outs cols, grid is n (fun i t => copies outs (C i t))).
  Proof.
    intros Hget. revert cols C. induction outs as [|[f o] outs IH]; intros cols C Hin; [reflexivity|].
    cbn [map fst add_copies]. unfold dget_err. rewrite (Hget f o) by now left. cbn [rbind].
    assert (Hm : smem o cols = true) by (apply smem_In; apply (Hin (f, o)); now left).
    rewrite Hm.
    rewrite (map_grid is n C (fun i t c => set_fun (copy_name (f, o)) (c o) c)).
    - rewrite IH; [| |].
      + f_equal. f_equal. unfold columns_after. simpl. now rewrite <- app_assoc.
      + intros f' o' H. apply Hget. now right.
      + intros fo Hfo. right. apply Hin. now right.
    - intros i t c. reflexivity.
  Qed.

  Lemma add_copies_fail a (outs : list (string * string)) cols (rows : list (prow V)) fo :
    (forall f o, In (f, o) outs -> dget (a_outcomes a) f = Some o) ->
    (forall fo, In fo outs -> ~ In (snd fo) (map copy_name outs)) ->
    In fo outs -> ~ In (snd fo) cols ->
    add_copies a (map fst outs) cols rows = Err KeyError.
  Proof.
    intros Hget. revert cols rows. induction outs as [|[f o] outs IH]; intros cols rows Hcl Hin Hno;
      [destruct Hin|].
    cbn [map fst add_copies]. unfold dget_err. rewrite (Hget f o) by now left. cbn [rbind].
    destruct (smem o cols) eqn:E; [|reflexivity].
    apply smem_In in E.
    destruct Hin as [<-|Hin]; [contradiction|]. apply IH.
    - intros f' o' H. apply Hget. now right.
    - intros fo' H Hc. apply (Hcl fo'); [now right|]. now right.
    - exact Hin.
    - intros [Hc|Hc]; [|contradiction]. apply (Hcl fo); [now right|]. left. exact Hc.
  Qed.

  (** ** Distinct values *)
  Lemma In_dropna (l : list (option V)) x : In x (dropna l) <-> In (Some x) l.
  Proof.
    induction l as [|[y|] l IH]; simpl; [tauto| |].
    - rewrite IH. split; (intros [H|H]; [left; congruence|now right]).
    - rewrite IH. split; [now right|intros [H|H]; [discriminate|exact H]].
  Qed.

  Lemma unique_one l :
    length (unique veqb l) =? 1 = true <-> exists x, In x l /\ forall y, In y l -> y = x.
  Proof.
    rewrite Nat.eqb_eq. destruct l as [|x l]; simpl.
    - split; [discriminate|intros (x & [] & _)].
    - assert (Hin : forall l y, In y (unique veqb l) <-> In y l).
      { clear l. intros l. induction l as [|z l IH]; intros y; simpl; [tauto|].
        rewrite filter_In, IH. split.
        - intros [->|[H _]]; auto.
        - intros [->|H]; [now left|]. destruct (veqb z y) eqn:E.
          + left. now apply veqb_spec.
          + right. auto. }
      split.
      + intros E. exists x. split; [now left|]. intros y [->|Hy]; [reflexivity|].
        assert (Hnil : filter (fun y => negb (veqb x y)) (unique veqb l) = []).
        { destruct (filter _ _); [reflexivity|discriminate]. }
        destruct (veqb x y) eqn:E2; [symmetry; now apply veqb_spec|]. exfalso.
        assert (Hf : In y (filter (fun y => negb (veqb x y)) (unique veqb l))).
        { apply filter_In. split; [now apply Hin|now rewrite E2]. }
        rewrite Hnil in Hf. destruct Hf.
      + intros (w & Hw & Hall). f_equal.
        rewrite filter_none; [reflexivity|]. intros y Hy.
        apply (proj1 (Hin l y)) in Hy. apply negb_false_iff. apply veqb_spec.
        rewrite (Hall x (or_introl eq_refl)), (Hall y (or_intror Hy)). reflexivity.
  Qed.

  Lemma is_null_spec (x : option V) : is_null x = true <-> x = None.
  Proof. destruct x; simpl; split; congruence. Qed.
End Facts.
