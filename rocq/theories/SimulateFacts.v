(** Lemmas about the simulation. *)
Require Import Reals Qreals String Arith ZArith Bool List Lia Lra Sorted Permutation.
From Verif Require Import PyBase ListFacts ModelSpec ProcessModel CheckModel SpecModel ProcessModelFacts
  SpecParse SpecIndex IndexFacts ParamsIndex ParseParams ParamsVec PropsParse ProcessData RSum Kalman SpecKalman
  Clipping Likelihood SpecLikelihood ScheduleFacts DebugData SpecDebug DebugFacts Simulate SpecSimulate.
Import ListNotations.
Open Scope string_scope.
Open Scope list_scope.
Open Scope nat_scope.

(** * Sorting *)

Definition id_of (row : string -> cell) : nat := int_of (row "id").
Definition period_of (row : string -> cell) : nat := int_of (row "period").
Definition klt (a b : string -> cell) : Prop :=
  id_of a < id_of b \/ (id_of a = id_of b /\ period_of a < period_of b).
Definition kle (a b : string -> cell) : Prop :=
  id_of a < id_of b \/ (id_of a = id_of b /\ period_of a <= period_of b).

Lemma key_leb_spec a b : key_leb a b = true <-> kle a b.
Proof.
  unfold key_leb, kle, id_of, period_of.
  rewrite orb_true_iff, andb_true_iff, Nat.ltb_lt, Nat.eqb_eq, Nat.leb_le. reflexivity.
Qed.

Lemma insert_perm row l : Permutation (row :: l) (insert_by_key row l).
Proof.
  induction l as [|r l IH]; simpl; [constructor; constructor|].
  destruct (key_leb row r); [apply Permutation_refl|].
  eapply perm_trans; [apply perm_swap|]. now constructor.
Qed.

Lemma sort_perm l : Permutation l (fold_right insert_by_key [] l).
Proof.
  induction l as [|r l IH]; simpl; [constructor|].
  eapply perm_trans; [|apply insert_perm]. now constructor.
Qed.

Lemma insert_sorted row l : StronglySorted kle l -> StronglySorted kle (insert_by_key row l).
Proof.
  induction 1 as [|r l Hs IH Hf]; simpl; [repeat constructor|].
  destruct (key_leb row r) eqn:E.
  - apply key_leb_spec in E. constructor; [now constructor|]. constructor; [exact E|].
    rewrite Forall_forall in *. intros x Hx. specialize (Hf x Hx). unfold kle in *. lia.
  - constructor; [exact IH|]. rewrite Forall_forall in *. intros x Hx.
    apply (Permutation_in _ (Permutation_sym (insert_perm row l))) in Hx as [<-|Hx]; [|auto].
    assert (~ kle row r) as Hn by (rewrite <- key_leb_spec, E; discriminate).
    unfold kle in *. lia.
Qed.

Lemma sort_sorted l : StronglySorted kle (fold_right insert_by_key [] l).
Proof. induction l as [|r l IH]; simpl; [constructor|]. now apply insert_sorted. Qed.

Lemma sorted_unique l : forall s, StronglySorted kle s -> StronglySorted klt l -> Permutation s l -> s = l.
Proof.
  induction l as [|a l IH]; intros s Hs Hl Hp.
  - now apply Permutation_sym, Permutation_nil in Hp.
  - destruct s as [|b s]; [now apply Permutation_nil in Hp|].
    inversion_clear Hs as [|? ? Hs' Hb]. inversion_clear Hl as [|? ? Hl' Ha].
    assert (Hba : b = a).
    { assert (Hb' : In b (a :: l)) by (apply (Permutation_in _ Hp); now left).
      assert (Ha' : In a (b :: s)) by (apply (Permutation_in _ (Permutation_sym Hp)); now left).
      destruct Hb' as [->|Hb']; [reflexivity|]. destruct Ha' as [->|Ha']; [reflexivity|].
      rewrite Forall_forall in *. specialize (Ha b Hb'). specialize (Hb a Ha'). unfold klt, kle in *. lia. }
    subst b. f_equal. apply IH; try assumption. now apply Permutation_cons_inv in Hp.
Qed.

Lemma sort_to l l' : Permutation l l' -> StronglySorted klt l' -> fold_right insert_by_key [] l = l'.
Proof.
  intros Hp Hs. apply sorted_unique; [apply sort_sorted|exact Hs|].
  eapply perm_trans; [apply Permutation_sym, sort_perm|exact Hp].
Qed.

(** * Tables in long format *)

Lemma flat_map_cons_perm {A B} (f : A -> B) (h : A -> list B) l :
  Permutation (flat_map (fun y => f y :: h y) l) (map f l ++ flat_map h l).
Proof.
  induction l as [|y l IH]; simpl; [constructor|]. constructor.
  eapply perm_trans; [apply Permutation_app_head, IH|]. rewrite !app_assoc.
  apply Permutation_app_tail, Permutation_app_comm.
Qed.

Lemma flat_map_nil {A B} (l : list A) : flat_map (fun _ => @nil B) l = [].
Proof. induction l; auto. Qed.

Lemma flat_map_swap {A B C} (f : A -> B -> C) l1 l2 :
  Permutation (flat_map (fun x => map (f x) l2) l1) (flat_map (fun y => map (fun x => f x y) l1) l2).
Proof.
  induction l1 as [|x l1 IH]; simpl.
  - rewrite flat_map_nil. constructor.
  - eapply perm_trans; [|apply Permutation_sym, flat_map_cons_perm]. now apply Permutation_app_head.
Qed.

Lemma sorted_app {A} (Rel : A -> A -> Prop) l l' :
  StronglySorted Rel l -> StronglySorted Rel l' -> (forall x y, In x l -> In y l' -> Rel x y) ->
  StronglySorted Rel (l ++ l').
Proof.
  intros Hl Hl' H. induction Hl as [|x l Hl IH Hf]; simpl; [exact Hl'|].
  constructor; [apply IH; intros; apply H; simpl; auto|]. apply Forall_app. split; [exact Hf|].
  apply Forall_forall. intros y Hy. apply H; simpl; auto.
Qed.

Lemma sorted_map {A B} (f : A -> B) (Rel : B -> B -> Prop) (Ral : A -> A -> Prop) l :
  (forall x y, Ral x y -> Rel (f x) (f y)) -> StronglySorted Ral l -> StronglySorted Rel (map f l).
Proof.
  intros H. induction 1 as [|x l Hl IH Hf]; simpl; constructor; [exact IH|].
  rewrite Forall_forall in *. intros y Hy. apply in_map_iff in Hy as (z & <- & Hz). auto.
Qed.

Lemma sorted_seq n : forall s, StronglySorted lt (seq s n).
Proof.
  induction n as [|n IH]; intros s; simpl; constructor; [apply IH|].
  apply Forall_forall. intros x Hx. apply in_seq in Hx. lia.
Qed.

Lemma sorted_flat_map (rows : nat -> nat -> string -> cell) n N :
  (forall i t, id_of (rows i t) = i) -> (forall i t, period_of (rows i t) = t) ->
  forall s, StronglySorted klt (flat_map (fun i => map (rows i) (range n)) (seq s N)).
Proof.
  intros Hid Hper. induction N as [|N IH]; intros s; simpl; [constructor|].
  apply sorted_app.
  - apply (sorted_map _ _ lt); [|apply sorted_seq].
    intros x y Hxy. right. rewrite !Hid, !Hper. auto.
  - apply IH.
  - intros x y Hx Hy. apply in_map_iff in Hx as (t & <- & _).
    apply in_flat_map in Hy as (i & Hi & Hy). apply in_map_iff in Hy as (t' & <- & _).
    apply in_seq in Hi. left. rewrite !Hid. lia.
Qed.

Lemma combine_app {A B} (a1 : list A) : forall (b1 : list B) a2 b2, length a1 = length b1 ->
  combine (a1 ++ a2) (b1 ++ b2) = combine a1 b1 ++ combine a2 b2.
Proof.
  induction a1 as [|x a1 IH]; intros [|y b1] a2 b2 H; try discriminate H; [reflexivity|].
  simpl. f_equal. apply IH. now injection H.
Qed.

Lemma enumerate_app {A} (l l' : list A) :
  enumerate (l ++ l') = enumerate l ++ map (fun kx => (length l + fst kx, snd kx)) (enumerate l').
Proof.
  unfold enumerate. rewrite app_length, seq_app, combine_app by now rewrite seq_length. f_equal.
  replace (0 + length l) with (length l + 0) by lia. generalize 0. generalize (length l) as m.
  induction l' as [|x l' IH]; intros m s; simpl; [reflexivity|]. f_equal.
  rewrite <- IH. f_equal. rewrite Nat.add_succ_r. reflexivity.
Qed.

Lemma map_enumerate_blocks {A B} (N : nat) (F : nat -> nat -> A) (h : nat -> A -> B) l :
  map (fun kx => h (fst kx mod N) (snd kx)) (enumerate (flat_map (fun t => map (F t) (range N)) l))
  = flat_map (fun t => map (fun i => h i (F t i)) (range N)) l.
Proof.
  assert (Hsame : forall k t, k mod N = 0 ->
    map (fun kx => h ((k + fst kx) mod N) (snd kx)) (enumerate (map (F t) (range N)))
    = map (fun i => h i (F t i)) (range N)).
  { intros k t Hk. rewrite enumerate_map, enumerate_range, !map_map. apply map_ext_in. intros i Hi.
    apply in_seq in Hi. cbn [fst snd]. destruct N as [|N]; [lia|].
    rewrite <- Nat.add_mod_idemp_l, Hk, Nat.mod_small by lia. reflexivity. }
  enough (forall k, k mod N = 0 ->
    map (fun kx => h ((k + fst kx) mod N) (snd kx)) (enumerate (flat_map (fun t => map (F t) (range N)) l))
    = flat_map (fun t => map (fun i => h i (F t i)) (range N)) l) as H.
  { rewrite <- (H 0); [reflexivity|]. destruct N; [reflexivity|]. now apply Nat.mod_0_l. }
  induction l as [|t l IH]; intros k Hk; simpl; [reflexivity|].
  rewrite enumerate_app, map_app, (Hsame k t Hk), map_map. f_equal.
  rewrite map_length. unfold range at 1. rewrite seq_length. cbn [fst snd].
  rewrite <- (IH (k + N)).
  - apply map_ext. intros kx. f_equal. f_equal. lia.
  - destruct N as [|N]; [now rewrite Nat.add_0_r|].
    rewrite <- Nat.add_mod_idemp_l, Hk, Nat.add_0_l by lia. apply Nat.mod_same. lia.
Qed.

Definition union_columns (cols : nat -> list string) (n : nat) : list string :=
  ssort_unique (flat_map cols (range n)).

Lemma long_table_rows N n (cols : nat -> list string) (g : nat -> nat -> string -> cell) :
  n <> 0 -> (forall t, In "period" (cols t)) -> (forall t i, g t i "period" = CInt t) ->
  long_table N (map (fun t => numbered (cols t) N (g t)) (range n))
  = Ok (mk_table (if smem "id" (union_columns cols n) then union_columns cols n
                  else union_columns cols n ++ ["id"])
         (flat_map (fun i => map (fun t c => if String.eqb c "id" then CInt i
                                             else if smem c (cols t) then g t i c else CNan) (range n))
            (range N))).
Proof.
  intros Hn Hc Hg. unfold long_table, concat_sorted.
  destruct (map (fun t => numbered (cols t) N (g t)) (range n)) as [|tb ts] eqn:E.
  { destruct n; [contradiction|discriminate]. }
  rewrite <- E. clear tb ts E. cbn [rbind]. f_equal. unfold sort_values, set_column. cbn [tb_columns tb_rows].
  assert (Hcol : flat_map tb_columns (map (fun t => numbered (cols t) N (g t)) (range n))
                 = flat_map cols (range n)).
  { rewrite flat_map_concat_map, map_map, <- flat_map_concat_map. reflexivity. }
  rewrite Hcol. clear Hcol. unfold union_columns. f_equal.
  rewrite flat_map_concat_map, map_map, <- flat_map_concat_map. cbn [numbered tb_columns tb_rows].
  set (F := fun t i (c : string) => if smem c (cols t) then g t i c else CNan).
  assert (Hrows : flat_map (fun t => map (fun (row : string -> cell) c => if smem c (cols t) then row c else CNan)
                     (map (g t) (range N))) (range n)
                  = flat_map (fun t => map (F t) (range N)) (range n)).
  { rewrite !flat_map_concat_map. f_equal. apply map_ext. intros t. rewrite map_map. reflexivity. }
  rewrite Hrows. clear Hrows.
  rewrite (map_enumerate_blocks N F (fun k row c => if String.eqb c "id" then CInt k else row c)).
  apply sort_to.
  - apply (flat_map_swap (fun t i c => if String.eqb c "id" then CInt i else F t i c)).
  - apply sorted_flat_map; intros i t; unfold id_of, period_of; simpl; [reflexivity|].
    unfold F. rewrite (proj2 (smem_In _ _) (Hc t)), Hg. reflexivity.
Qed.

Lemma In_sinsert x y l : In y (sinsert x l) <-> y = x \/ In y l.
Proof.
  induction l as [|z l IH]; simpl; [intuition|].
  destruct (String.eqb_spec x z) as [->|]; simpl; [intuition|].
  destruct (sleb x z); simpl; [intuition|]. rewrite IH. intuition.
Qed.
Lemma In_ssort x l : In x (ssort_unique l) <-> In x l.
Proof. induction l as [|y l IH]; simpl; [tauto|]. rewrite In_sinsert, IH. intuition. Qed.

(** * States and measurements *)

Section Facts.
  Variable nan : R.
  Variable tfunc : dict (list R) -> vec -> vec.
  Context {G : Type}.
  Variable rnd : random G.

  Lemma index_of_spec l x j : index_of l x = Ok j -> nth_error l j = Some x.
  Proof.
    revert j. induction l as [|y l IH]; intros j; simpl; [discriminate|].
    destruct (String.eqb_spec x y) as [->|]; [intros [= <-]; reflexivity|].
    intros H. apply rbind_ok in H as (k & Hk & [= <-]). simpl. auto.
  Qed.

  Lemma index_of_total l x : In x l -> exists j, index_of l x = Ok j.
  Proof.
    induction l as [|y l IH]; simpl; [tauto|]. intros H.
    destruct (String.eqb_spec x y) as [->|Hne]; [eauto|].
    destruct H as [H|H]; [congruence|]. destruct (IH H) as [j ->]. simpl. eauto.
  Qed.

  Lemma get_shock_spec g po N shock g' :
    get_shock rnd g (po_effect_size po) (po_standard_deviation po) N = Ok (shock, g') ->
    shock_drawn rnd N po g shock g'.
  Proof.
    unfold get_shock, shock_drawn. destruct (Req_EM_T _ _) as [E|E].
    - intros [= <- <-]. auto.
    - destruct (Rlt_dec _ _) as [L|L]; [|discriminate]. intros [= <-]. auto.
  Qed.

  Lemma apply_policies_spec factors N pos : forall X g X' g',
    apply_policies rnd factors N pos X g = Ok (X', g') -> policies_applied rnd factors N pos X g X' g'.
  Proof.
    induction pos as [|po pos IH]; intros X g X' g' H; simpl in H.
    - injection H as <- <-. constructor.
    - apply rbind_ok in H as (j & Hj & H). apply rbind_ok in H as ([shock g1] & Hs & H). cbn [fst snd] in H.
      eapply one_policy; [apply index_of_spec; eassumption|apply get_shock_spec; eassumption| |apply IH; exact H].
      reflexivity.
  Qed.

  Lemma start_draws_spec d args (helper : nat -> nat) N : forall s g,
    let out := start_draws rnd d args helper g (seq s N) in
    length (fst out) = N /\
    exists gs, gs 0 = g /\ gs N = snd out /\
      forall i, i < N ->
        let a := nth (helper (s + i)) args (fun _ => 0%R, fun _ _ => 0%R) in
        let draw := rn_mvn rnd (gs i) d (fst a) (snd a) 1 in
        nth_error (fst out) i = Some (fst draw 0) /\ gs (S i) = snd draw.
  Proof.
    induction N as [|N IH]; intros s g; cbn zeta.
    - simpl. split; [reflexivity|]. exists (fun _ => g). repeat split; try reflexivity; lia.
    - cbn [seq start_draws]. set (a := nth (helper s) args _).
      set (draw := rn_mvn rnd g d (fst a) (snd a) 1).
      destruct (IH (S s) (snd draw)) as (Hl & gs & H0 & HN & Hd). cbn [fst snd length]. split; [lia|].
      exists (fun k => match k with 0 => g | S k' => gs k' end). repeat split; [exact HN| |].
      + destruct i as [|i]; simpl.
        * rewrite Nat.add_0_r. reflexivity.
        * replace (s + S i) with (S s + i) by lia. apply Hd. lia.
      + destruct i as [|i]; simpl.
        * rewrite Nat.add_0_r. exact H0.
        * replace (s + S i) with (S s + i) by lia. apply Hd. lia.
  Qed.

  Lemma simulate_states_spec d factors N ps obs policies k : forall t X g l g',
    simulate_states nan tfunc rnd d factors N ps obs policies k t X g = Ok (l, g') ->
    length l = S k /\
    exists starts gens, starts 0 = X /\ gens 0 = g /\ gens k = g' /\
      nth_error l k = Some (starts k) /\
      forall r, r < k -> exists X' g1, nth_error l r = Some X' /\
        apply_policies rnd factors N (policies_of policies (t + r)) (starts r) (gens r) = Ok (X', g1) /\
        (starts (S r), gens (S r)) = next_states nan tfunc rnd d N ps obs (t + r) X' g1.
  Proof.
    induction k as [|k IH]; intros t X g l g' H; cbn [simulate_states] in H.
    - injection H as <- <-. split; [reflexivity|]. exists (fun _ => X), (fun _ => g).
      repeat split; try reflexivity. intros; lia.
    - apply rbind_ok in H as ([X' g1] & Hp & H). cbn [fst snd] in H.
      destruct (next_states nan tfunc rnd d N ps obs t X' g1) as [Y g2] eqn:En. cbn [fst snd] in H.
      apply rbind_ok in H as ([l' g3] & Hr & [= <- <-]). cbn [fst snd].
      destruct (IH _ _ _ _ _ Hr) as (Hl & starts & gens & H0 & Hg & Hk & Hlast & Hstep).
      split; [simpl; lia|].
      exists (fun r => match r with 0 => X | S r' => starts r' end),
             (fun r => match r with 0 => g | S r' => gens r' end).
      repeat split; try assumption. intros [|r] Hr'.
      + exists X', g1. rewrite Nat.add_0_r. repeat split; [exact Hp|]. rewrite H0, Hg. symmetry. exact En.
      + destruct (Hstep r ltac:(lia)) as (X'' & g1' & A & B & C). exists X'', g1'.
        replace (t + S r) with (S t + r) by lia. repeat split; assumption.
  Qed.

  Lemma flat_div_1 N i : i < N -> (i / N / 1 = 0)%nat.
  Proof. intros H. rewrite Nat.div_1_r. now apply Nat.div_small. Qed.

  Lemma next_states_spec d N ps obs t X g Y g' :
    next_states nan tfunc rnd d N ps obs t X g = (Y, g') ->
    let inp := simulation_inputs ps (fun _ _ _ => None) obs in
    let shocks := rn_mvn rnd g (n_latent d) (fun _ => 0%R)
                    (diag (fun f => in_shock_sds inp t f ^ 2)%R) N in
    g' = snd shocks /\
    forall i f, i < N ->
      Y i f = (anchored_transition (tfunc (in_coeffs inp t))
                (fun r => in_scaling inp (t + r)%nat) (fun r => in_constants inp (t + r)%nat)
                (all_factors nan (n_latent d) (X i) (in_observed inp t i)) f + fst shocks i f)%R.
  Proof.
    unfold next_states. intros [= <- <-]. cbn zeta. split; [reflexivity|].
    intros i f Hi. f_equal. unfold transform_sigma_points, flat, anchored_transition. cbn [Nat.mul Nat.add].
    rewrite (Nat.mod_small i N Hi). reflexivity.
  Qed.

  Definition loc (u : list urow) (t : nat) : list (nat * urow) :=
    filter (fun ku => u_period (snd ku) =? t) (enumerate u).

  Lemma simulate_measurements_spec d N ps controls u : forall l t g tables,
    simulate_measurements nan rnd d N ps controls u t l g = Ok tables ->
    length tables = length l /\
    exists gens, gens 0 = g /\
      forall r X, nth_error l r = Some X ->
        loc u (t + r) <> [] /\
        let meas := measurements_from_states nan rnd d N ps controls (t + r) X (map fst (loc u (t + r))) (gens r) in
        gens (S r) = snd meas /\
        exists df, data_frame N (length (loc u (t + r))) (fst meas)
                     (map (fun ku => u_var (snd ku)) (loc u (t + r))) = Ok df /\
          nth_error tables r = Some (set_column "period" (fun _ => CInt (t + r)) df).
  Proof.
    induction l as [|X l IH]; intros t g tables H; cbn [simulate_measurements] in H.
    - injection H as <-. split; [reflexivity|]. exists (fun _ => g). split; [reflexivity|].
      intros r X Hr. destruct r; discriminate.
    - fold (loc u t) in H. destruct (loc u t) as [|ku lc] eqn:El; [discriminate|]. rewrite <- El in H.
      assert (Hne : loc u t <> []) by (rewrite El; discriminate). clear El ku lc.
      apply rbind_ok in H as (df & Hdf & H). apply rbind_ok in H as (rest & Hr & [= <-]).
      destruct (IH _ _ _ Hr) as (Hl & gens & H0 & Hstep). split; [simpl; lia|].
      exists (fun r => match r with 0 => g | S r' => gens r' end). split; [reflexivity|].
      intros [|r] X' HX.
      + injection HX as <-. rewrite Nat.add_0_r. split; [exact Hne|]. split; [exact H0|].
        exists df. split; [exact Hdf|reflexivity].
      + replace (t + S r) with (S t + r) by lia. exact (Hstep r X' HX).
  Qed.
End Facts.

(** * The tables of a simulation *)

Definition frame_cell (n_cols : nat) (arr : nat -> nat -> cell) (columns : list string) : nat -> string -> cell :=
  fun r c => match dget (combine columns (map (arr r) (range n_cols))) c with
             | Some x => x
             | None => CNan
             end.

Lemma data_frame_explicit n_rows n_cols arr columns : length columns = n_cols ->
  data_frame n_rows n_cols arr columns = Ok (numbered columns n_rows (frame_cell n_cols arr columns)).
Proof. intros Hl. unfold data_frame. rewrite (proj2 (Nat.eqb_eq _ _) Hl). reflexivity. Qed.

Lemma frame_cell_at n_cols arr columns r j f :
  length columns = n_cols -> NoDup columns -> nth_error columns j = Some f ->
  frame_cell n_cols arr columns r f = arr r j.
Proof.
  intros Hl Hnd Hj. unfold frame_cell.
  rewrite (dget_combine columns (map (arr r) (range n_cols)) j f (arr r j) Hnd Hj); [reflexivity|].
  rewrite nth_error_map. rewrite nth_error_range; [reflexivity|].
  rewrite <- Hl. apply nth_error_Some. congruence.
Qed.

Lemma nth_error_ext {A} (l : list A) : forall l', (forall r, nth_error l r = nth_error l' r) -> l = l'.
Proof.
  induction l as [|x l IH]; intros [|y l'] H; [reflexivity| | |].
  - discriminate (H 0).
  - discriminate (H 0).
  - f_equal; [|apply IH; intros r; exact (H (S r))]. specialize (H 0). simpl in H. congruence.
Qed.

Lemma list_by_nth {A} (F : nat -> A) n l :
  length l = n -> (forall r, r < n -> nth_error l r = Some (F r)) -> l = map F (range n).
Proof.
  intros Hl H. apply nth_error_ext. intros r. rewrite nth_error_map.
  destruct (Nat.lt_ge_cases r n) as [Hr|Hr].
  - rewrite (H r Hr). rewrite nth_error_range by assumption. reflexivity.
  - rewrite (proj2 (nth_error_None l r)) by lia.
    rewrite (proj2 (nth_error_None (range n) r)) by (unfold range; rewrite seq_length; lia). reflexivity.
Qed.

Lemma nth_flat_range {A} (f : nat -> nat -> A) n N i t : i < N -> t < n ->
  nth_error (flat_map (fun i => map (f i) (range n)) (range N)) (i * n + t) = Some (f i t).
Proof.
  intros Hi Ht.
  rewrite (nth_error_flat_map _ n (range N)) with (x := i).
  - rewrite nth_error_map. rewrite nth_error_range by assumption. reflexivity.
  - intros x _. rewrite map_length. apply seq_length.
  - now apply nth_error_range.
  - assumption.
Qed.

Lemma length_flat_range {A} (f : nat -> nat -> A) n N :
  length (flat_map (fun i => map (f i) (range n)) (range N)) = N * n.
Proof.
  rewrite (length_flat_map _ n); [unfold range; now rewrite seq_length|].
  intros x _. rewrite map_length. apply seq_length.
Qed.

Lemma loc_equations md p n t : wf_dicts md -> process_model md = Ok p -> has_n_periods md n ->
  period_equations md n t = map fst (loc (p_update p) t).
Proof.
  intros Hwf Hp Hn. unfold period_equations, loc. rewrite (equations_update md p n Hwf Hp Hn).
  rewrite enumerate_map. generalize (enumerate (p_update p)) as l. induction l as [|ku l IH]; simpl; [reflexivity|].
  unfold u_key at 1. cbn [fst]. destruct (u_period (snd ku) =? t); simpl; now rewrite IH.
Qed.

Lemma In_loc u t k r : In (k, r) (loc u t) <-> nth_error u k = Some r /\ u_period r = t.
Proof. unfold loc. rewrite filter_In, In_enumerate. cbn [snd]. rewrite Nat.eqb_eq. reflexivity. Qed.

Lemma loc_variables md p n t : wf_dicts md -> process_model md = Ok p -> has_n_periods md n ->
  NoDup (map (fun ku => u_var (snd ku)) (loc (p_update p) t)) /\
  forall v, In v (map (fun ku => u_var (snd ku)) (loc (p_update p) t)) <-> In (t, v) (equations md n).
Proof.
  intros Hwf Hp Hn. split.
  - apply NoDup_map_inj.
    + apply NoDup_filter, NoDup_enumerate.
    + intros [k r] [k' r'] H H' E. cbn [snd] in E. apply In_loc in H as [H1 H2], H' as [H1' H2'].
      assert (Hnd : NoDup (map u_key (p_update p))).
      { rewrite (equations_keys md p n Hwf Hp Hn). apply NoDup_first_appearances. }
      assert (k = k').
      { apply (proj1 (NoDup_nth_error _) Hnd).
        - rewrite map_length. apply nth_error_Some. congruence.
        - rewrite !nth_error_map, H1, H1'. simpl. unfold u_key. congruence. }
      congruence.
  - intros v. rewrite (equations_update md p n Hwf Hp Hn), !in_map_iff. split.
    + intros ([k r] & <- & H). apply In_loc in H as [H <-]. exists r. split; [reflexivity|].
      now apply nth_error_In in H.
    + intros (r & [= <- <-] & H). apply In_nth_error in H as [k Hk]. exists (k, r). split; [reflexivity|].
      apply In_loc. auto.
Qed.

(** The states and measurements of a simulation. *)
Section History.
  Variable nan : R.
  Variable tfunc : dict (list R) -> vec -> vec.
  Context {G : Type}.
  Variable rnd : random G.
  Variables (md : model_dict) (p : processed) (n : nat).
  Hypothesis Hwf : wf_dicts md.
  Hypothesis Hg : good_names md.
  Hypothesis Hp : process_model md = Ok p.
  Hypothesis Hn : has_n_periods md n.
  Hypothesis Hres : no_reserved_names md n.

  Lemma long_table_shows N (cols : nat -> list string) (g : nat -> nat -> string -> cell) :
    n <> 0 -> (forall t, In "period" (cols t)) -> (forall t i, g t i "period" = CInt t) ->
    exists tb, long_table N (map (fun t => numbered (cols t) N (g t)) (range n)) = Ok tb /\
      long_form n N tb /\
      (forall c, In c (tb_columns tb) <-> c = "id" \/ exists t, t < n /\ In c (cols t)) /\
      forall i t c, i < N -> t < n -> c <> "id" ->
        shows n tb i t c (if smem c (cols t) then g t i c else CNan).
  Proof using.
    clear. intros Hn Hc Hgp. eexists. split; [now apply long_table_rows|].
    assert (Hrow : forall i t, i < N -> t < n ->
      nth_error (flat_map (fun i => map (fun t c => if String.eqb c "id" then CInt i
                                         else if smem c (cols t) then g t i c else CNan) (range n)) (range N))
        (i * n + t) = Some (fun c => if String.eqb c "id" then CInt i
                                     else if smem c (cols t) then g t i c else CNan)).
    { intros i t Hi Ht. rewrite (nth_flat_range (fun i t c => if String.eqb c "id" then CInt i
        else if smem c (cols t) then g t i c else CNan)) by assumption. reflexivity. }
    split; [split; [|]|split].
    - cbn [tb_rows]. apply (length_flat_range (fun i t c => if String.eqb c "id" then CInt i
        else if smem c (cols t) then g t i c else CNan)).
    - intros i t Hi Ht. split; eexists; (split; [apply (Hrow i t Hi Ht)|]); [reflexivity|].
      cbn beta. change (String.eqb "period" "id") with false. cbv iota.
      rewrite (proj2 (smem_In _ _) (Hc t)). apply Hgp.
    - intros c. cbn [tb_columns].
      assert (Hu : In c (union_columns cols n) <-> exists t, t < n /\ In c (cols t)).
      { unfold union_columns. rewrite In_ssort, in_flat_map. unfold range.
        split; intros (t & Ht & Hin); exists t; (split; [|exact Hin]); [apply in_seq in Ht; lia|apply in_seq; lia]. }
      destruct (smem "id" (union_columns cols n)) eqn:E.
      + rewrite Hu. split; [auto|]. intros [->|H]; [|exact H]. apply smem_In in E. now apply Hu.
      + rewrite in_app_iff, Hu. simpl. intuition.
    - intros i t c Hi Ht Hne. eexists. split; [apply (Hrow i t Hi Ht)|]. cbv beta.
      rewrite (proj2 (String.eqb_neq _ _) Hne). reflexivity.
  Qed.

  Section From.
    Variables (N : nat) (vec0 : list R) (ps : parsed R).
    Variables (controls observed : nat -> nat -> nat -> option R) (policies : list policy) (g : G).
    Hypothesis Hlen : length vec0 = length (params_index_of p).
    Hypothesis Hps : parse_for 0%R 1%R ln p vec0 N = Ok ps.
    Let inp := simulation_inputs ps controls observed.

    Lemma start_history lw args X g' :
      nth_err (ps_log_weights ps) 0 = Ok lw -> dist_args (p_dims p) ps = Ok args ->
      generate_start_states rnd g N (n_latent (p_dims p)) args (map exp lw) = Ok (X, g') ->
      drawn_from_mixture rnd (n_mixtures_of md) (length (latent_of md)) N
        (fun m => exp (be_logw (initial_belief ps) 0 m)) (be_states (initial_belief ps) 0)
        (fun m => cov (length (latent_of md)) (be_chols (initial_belief ps) 0 m)) g X g'.
    Proof using Hwf Hg Hp Hn Hlen Hps.
      intros Hlw Hargs Hst.
      destruct (p_dims_eq md p Hp) as (El & _ & _ & Em & _). rewrite El in Hst.
      destruct (C10_initial_distribution R 0%R 1%R ln md p n N vec0 ps Hwf (idx_NoDup md p Hwf Hg Hp) Hp Hn Hlen Hps)
        as (_ & _ & Hl & Hi).
      unfold nth_err in Hlw. destruct (nth_error (ps_log_weights ps) 0) as [lw'|] eqn:E0; [|discriminate].
      injection Hlw as ->.
      assert (HN : 0 < N).
      { rewrite <- Hl. apply nth_error_Some. congruence. }
      destruct (Hi 0 HN) as (st & ch & w & Hs & Hc & Hw & Hls & Hlc & Hlw & _). clear Hi.
      rewrite E0 in Hw. injection Hw as <-.
      unfold dist_args in Hargs. unfold nth_err in Hargs. rewrite Hs, Hc in Hargs. cbn [rbind] in Hargs.
      injection Hargs as <-. rewrite El, Em in Hst.
      match type of Hst with context [generate_start_states rnd g N _ ?a _] => set (args := a) in Hst end.
      assert (Hargs : forall m, m < n_mixtures_of md ->
        @nth_error (vec * mat) args m = Some (be_states (initial_belief ps) 0 m,
                                 cov (length (latent_of md)) (be_chols (initial_belief ps) 0 m))).
      { intros m Hm. unfold args. rewrite nth_error_map, nth_error_range by assumption. simpl.
        unfold cov, arr4, arr3 at 3. rewrite (nth_of_nth_error _ _ _ [] Hs), (nth_of_nth_error _ _ _ [] Hc).
        reflexivity. }
      unfold generate_start_states in Hst. rewrite map_length, Hlw in Hst. unfold drawn_from_mixture.
      destruct (Nat.eqb_spec (n_mixtures_of md) 1) as [E1|E1].
      - split; [|contradiction]. intros _. unfold nth_err in Hst. rewrite (Hargs 0) in Hst by lia.
        cbn [rbind fst snd] in Hst. congruence.
      - split; [contradiction|]. intros _. apply rbind_ok in Hst as ([which g1] & Hch & Hst).
        cbn [fst snd] in Hst.
        match type of Hst with context [start_draws rnd ?d ?a ?h ?g ?is] =>
          destruct (start_draws_spec rnd d a h N 0 g) as (Hlo & gs & G0 & GN & Hd) end.
        fold (range N) in Hlo, GN, Hd. injection Hst as <- <-.
        exists (arr1 (map exp lw)), which, gs. rewrite G0. repeat split.
        + intros m Hm. unfold initial_belief, be_logw, arr2, arr1.
          rewrite (nth_of_nth_error _ _ _ [] E0), nth_indep with (d' := exp 0) by (rewrite map_length; lia).
          now rewrite map_nth.
        + exact Hch.
        + exact GN.
        + destruct (Hd i ltac:(assumption)) as [A _]. cbn [Nat.add] in A.
          rewrite (nth_of_nth_error _ _ _ _ (Hargs _ ltac:(eassumption))) in A.
          rewrite (nth_of_nth_error _ _ _ _ A). reflexivity.
        + destruct (Hd i ltac:(assumption)) as [_ B]. cbn [Nat.add] in B.
          rewrite (nth_of_nth_error _ _ _ _ (Hargs _ ltac:(eassumption))) in B. exact B.
    Qed.

    Definition meas_cols (t : nat) : list string :=
      map (fun ku => u_var (snd ku)) (loc (p_update p) t) ++ ["period"].

    Lemma meas_cols_In t c : In c (meas_cols t) <-> c = "period" \/ In (t, c) (equations md n).
    Proof using Hwf Hp Hn.
      unfold meas_cols. rewrite in_app_iff, (proj2 (loc_variables md p n t Hwf Hp Hn)). simpl. intuition.
    Qed.

    Lemma measured_history h l obs g1 tables :
      (forall t, t < n -> nth_error l t = Some (hi_states h t)) -> length l = n -> n <> 0 ->
      simulate_measurements nan rnd (p_dims p) N ps controls (p_update p) 0 l g1 = Ok tables ->
      long_table N tables = Ok obs ->
      exists h', hi_start h' = hi_start h /\ hi_states h' = hi_states h /\ hi_generator h' = hi_generator h /\
        hi_measurement_generator h' 0 = g1 /\ measured rnd md n N inp h' obs.
    Proof using Hwf Hp Hn Hres.
      clear Hlen Hps Hg. intros Hl Hll Hn0 Hm Hlong.
      destruct (simulate_measurements_spec nan rnd _ _ _ _ _ _ _ _ _ Hm) as (Hlt & gens & G0 & Hstep).
      exists (mk_history (hi_start h) (hi_states h) (hi_generator h) gens).
      cbn [hi_start hi_states hi_generator hi_measurement_generator]. repeat (split; [reflexivity || assumption|]).
      set (M := fun t => measurements_from_states nan rnd (p_dims p) N ps controls t (hi_states h t)
                  (map fst (loc (p_update p) t)) (gens t)).
      set (vars := fun t => map (fun ku : nat * urow => u_var (snd ku)) (loc (p_update p) t)).
      set (cells := fun t i (c : string) => if String.eqb c "period" then CInt t
                      else frame_cell (length (loc (p_update p) t)) (fst (M t)) (vars t) i c).
      assert (Hper : forall t, ~ In "period" (vars t)).
      { intros t Hin. unfold vars in Hin. apply (loc_variables md p n t Hwf Hp Hn) in Hin.
        exact (proj2 (Hres "period" (or_intror eq_refl)) t Hin). }
      assert (Htables : tables = map (fun t => numbered (meas_cols t) N (cells t)) (range n)).
      { apply list_by_nth; [lia|]. intros t Ht. destruct (Hstep t _ (Hl t Ht)) as (_ & _ & df & Hdf & ->).
        cbn [Nat.add] in Hdf |- *. rewrite data_frame_explicit in Hdf by apply map_length. injection Hdf as <-.
        pose proof (proj2 (smem_false _ _) (Hper t)) as Hf. unfold vars in Hf.
        rewrite set_column_numbered, Hf. reflexivity. }
      rewrite Htables in Hlong. clear Htables.
      destruct (long_table_shows N meas_cols cells Hn0) as (tb & Htb & Hform & Hcols & Hcell).
      { intros t. unfold meas_cols. apply in_or_app. simpl. auto. }
      { intros t i. reflexivity. }
      rewrite Hlong in Htb. injection Htb as <-. split; [exact Hform|]. split.
      - intros c. rewrite Hcols. split.
        + intros [->|(t & _ & Ht)]; [auto|]. apply meas_cols_In in Ht as [->|Ht]; eauto.
        + intros [->|[->|(t & Ht)]]; [auto| |].
          * right. exists 0. split; [lia|]. apply meas_cols_In. auto.
          * right. exists t. split; [now apply equations_period in Ht|]. apply meas_cols_In. auto.
      - intros t Ht. destruct (Hstep t _ (Hl t Ht)) as (_ & Hgen & _). cbn [Nat.add] in Hgen. fold (M t) in Hgen.
        cbn zeta. cbn [hi_measurement_generator hi_states].
        assert (HM : measurement_noise rnd md n N inp t (gens t)
                     = rn_mvn rnd (gens t) (length (map fst (loc (p_update p) t))) (fun _ => 0%R)
                         (diag (fun j => arr1 (ps_meas_sds ps) (nth j (map fst (loc (p_update p) t)) 0%nat) ^ 2)%R) N).
        { unfold measurement_noise. rewrite (loc_equations md p n t Hwf Hp Hn). reflexivity. }
        split.
        { rewrite Nat.add_1_r, Hgen, HM. reflexivity. }
        intros i Hi. split.
        + intros j k v Hj Hk. rewrite (loc_equations md p n t Hwf Hp Hn) in Hj.
          assert (Hv : nth_error (vars t) j = Some v).
          { unfold vars. rewrite nth_error_map in *. destruct (nth_error (loc (p_update p) t) j) as [[k' r]|] eqn:E;
              [|discriminate]. injection Hj as ->. apply nth_error_In, In_loc in E as [E Et]. simpl. f_equal.
            rewrite (equations_update md p n Hwf Hp Hn), nth_error_map, E in Hk. now injection Hk. }
          assert (Hin : In (t, v) (equations md n)) by (eapply nth_error_In; exact Hk).
          assert (Hid : v <> "id").
          { intros ->. exact (proj2 (Hres "id" (or_introl eq_refl)) t Hin). }
          assert (Hpe : v <> "period").
          { intros ->. exact (proj2 (Hres "period" (or_intror eq_refl)) t Hin). }
          pose proof (Hcell i t v Hi Ht Hid) as Hs.
          rewrite (proj2 (smem_In _ _) (proj2 (meas_cols_In t v) (or_intror Hin))) in Hs.
          assert (Hc : cells t i v = fst (M t) i j).
          { unfold cells. rewrite (proj2 (String.eqb_neq _ _) Hpe). apply frame_cell_at.
            - apply map_length.
            - apply (loc_variables md p n t Hwf Hp Hn).
            - exact Hv. }
          rewrite Hc in Hs. clear Hc.
          destruct (p_dims_eq md p Hp) as (El & _ & Ec & _).
          unfold M, measurements_from_states in Hs. cbn [fst] in Hs. rewrite El, Ec in Hs.
          rewrite (nth_of_nth_error _ _ _ 0 Hj) in Hs.
          split.
          * intros x (cs & Hcs & ->).
            rewrite (proj2 (forallb_forall _ _)) in Hs.
            { rewrite HM.
              replace (dot (S (length (controls_of md))) cs (in_control_params inp k))
                with (dot (S (length (controls_of md))) (fun c => to_number nan (controls t i c))
                        (arr2 (ps_controls ps) k)); [exact Hs|].
              unfold dot. apply rsum_ext. intros c Hc. cbn [inp simulation_inputs in_controls] in Hcs.
              change (in_controls inp t i) with (controls t i) in Hcs. rewrite (Hcs c Hc). reflexivity. }
            intros c Hc. apply in_seq in Hc. change (in_controls inp t i) with (controls t i) in Hcs.
            rewrite (Hcs c) by lia. reflexivity.
          * intros (c & Hc & Hnone). change (in_controls inp t i c) with (controls t i c) in Hnone.
            destruct (forallb _ _) eqn:Ef in Hs; [|exact Hs].
            rewrite forallb_forall in Ef. specialize (Ef c ltac:(apply in_seq; lia)). rewrite Hnone in Ef. discriminate.
        + intros v Hid Hpe Hnot. pose proof (Hcell i t v Hi Ht Hid) as Hs.
          rewrite (proj2 (smem_false _ _)) in Hs; [exact Hs|].
          rewrite meas_cols_In. intros [?|?]; contradiction.
    Qed.

    (** As [simulate_from_history] below, with the intermediate results of the run. *)
    Lemma simulate_from_run obs lat :
      simulate_from nan tfunc rnd p N ps controls observed policies g = Ok (obs, lat) ->
      exists h lw args X g0 l,
        nth_err (ps_log_weights ps) 0 = Ok lw /\ dist_args (p_dims p) ps = Ok args /\
        generate_start_states rnd g N (n_latent (p_dims p)) args (map exp lw) = Ok (X, g0) /\
        simulate_states nan tfunc rnd (p_dims p) (latent_of md) N ps observed policies (n - 1) 0 X g0
        = Ok (l, hi_measurement_generator h 0) /\
        (forall t, t < n -> nth_error l t = Some (hi_states h t)) /\
        valid_history nan tfunc rnd md n N inp (initial_belief ps) policies g h /\
        shows_states md n N h lat /\ measured rnd md n N inp h obs.
    Proof using Hwf Hg Hp Hn Hlen Hps Hres.
      intros H. unfold simulate_from in H.
      apply rbind_ok in H as (lw & Hlw & H). apply rbind_ok in H as (args & Hargs & H).
      apply rbind_ok in H as ([X g0] & Hst & H). cbn [fst snd] in H.
      apply rbind_ok in H as ([l g1] & Hl & H). cbn [fst snd] in H.
      apply rbind_ok in H as (tables & Hmeas & H). apply rbind_ok in H as (obs' & Hobs & H).
      apply rbind_ok in H as (ltables & Hlat & H). apply rbind_ok in H as (lat' & Hlong & H).
      injection H as -> ->.
      pose proof (start_history lw args X g0 Hlw Hargs Hst) as Hstart.
      destruct (p_dims_eq md p Hp) as (El & _ & _ & _ & Hn' & Hn1).
      pose proof (has_n_periods_fun md _ _ Hn' Hn) as En. rewrite En in *. clear Hn'.
      rewrite (l_latent_eq md p Hp) in *.
      destruct (simulate_states_spec nan tfunc rnd _ _ _ _ _ _ _ _ _ _ _ _ Hl)
        as (Hll & starts & gens & S0 & G0 & Gk & Hlast & Hstep).
      assert (Hlen' : length l = n) by lia.
      set (h := mk_history starts (fun t => nth t l (fun _ _ => 0%R)) gens gens).
      assert (Hnth : forall t, t < n -> nth_error l t = Some (hi_states h t)).
      { intros t Ht. cbn [h hi_states]. apply nth_error_of_nth. lia. }
      destruct (measured_history h l obs g1 tables Hnth Hlen' ltac:(lia) Hmeas Hobs)
        as (h' & H1 & H2 & H3 & H4 & Hm).
      exists h', lw, args, X, g0, l. split; [exact Hlw|]. split; [exact Hargs|]. split; [exact Hst|].
      split; [rewrite H4; exact Hl|]. split; [rewrite H2; exact Hnth|]. rewrite El in *.
      split; [|split; [|exact Hm]].
      - unfold valid_history. rewrite H1, H2, H3, H4. cbn [h hi_start hi_states hi_generator].
        split; [rewrite S0, G0; exact Hstart|]. split; [|split].
        + intros t Ht. destruct (Hstep t ltac:(lia)) as (X' & g2 & A & B & C). exists g2.
          cbn [Nat.add] in B, C. change (nth t l (fun _ _ => 0%R)) with (hi_states h t).
          assert (Hs : hi_states h t = X') by (apply nth_of_nth_error; exact A). rewrite Hs.
          split; [now apply apply_policies_spec|]. rewrite Nat.add_1_r. symmetry in C.
          destruct (next_states_spec nan tfunc rnd _ _ _ _ _ _ _ _ _ C) as [D1 D2]. rewrite El in *.
          split; [exact D1|]. intros i f Hi _. exact (D2 i f Hi).
        + apply nth_of_nth_error. exact Hlast.
        + symmetry. exact Gk.
      - set (cols := fun _ : nat => latent_of md ++ ["period"]).
        set (cells := fun t i (c : string) => if String.eqb c "period" then CInt t
               else frame_cell (length (latent_of md)) (fun i f => CNum (hi_states h t i f)) (latent_of md) i c).
        assert (Hper : ~ In "period" (latent_of md)) by (apply (Hres "period"); auto).
        assert (Htables : ltables = map (fun t => numbered (cols t) N (cells t)) (range n)).
        { apply list_by_nth.
          - apply mapM_length in Hlat. rewrite Hlat. unfold enumerate. rewrite combine_length, seq_length. lia.
          - intros t Ht.
            assert (Ht' : nth_error (enumerate l) t = Some (t, hi_states h t)).
            { rewrite nth_error_enumerate, (Hnth t Ht). reflexivity. }
            destruct (mapM_nth_error _ _ _ _ _ Hlat Ht') as (tb & Htb & E). rewrite Htb. f_equal.
            rewrite data_frame_explicit in E by reflexivity. cbn [rbind fst snd] in E. injection E as <-.
            rewrite set_column_numbered, (proj2 (smem_false _ _) Hper). reflexivity. }
        rewrite Htables in Hlong. clear Htables.
        destruct (long_table_shows N cols cells ltac:(lia)) as (tb & Htb & Hform & Hcols & Hcell).
        { intros t. unfold cols. apply in_or_app. simpl. auto. }
        { intros t i. reflexivity. }
        rewrite Hlong in Htb. injection Htb as <-. split; [exact Hform|]. split.
        + intros c. rewrite Hcols. unfold cols. split.
          * intros [->|(t & _ & Ht)]; [auto|]. apply in_app_or in Ht as [Ht|Ht]; [auto|]. destruct Ht as [<-|[]]. auto.
          * intros [Hc|[-> | ->]]; [| |auto]; right; exists 0; (split; [lia|]); apply in_or_app; simpl; auto.
        + intros i t j f Hi Ht Hj. rewrite H2.
          assert (Hin : In f (latent_of md)) by (eapply nth_error_In; exact Hj).
          assert (Hid : f <> "id") by (intros ->; exact (proj1 (Hres "id" (or_introl eq_refl)) Hin)).
          assert (Hpe : f <> "period") by (intros ->; contradiction).
          pose proof (Hcell i t f Hi Ht Hid) as Hs.
          rewrite (proj2 (smem_In _ _)) in Hs by (unfold cols; apply in_or_app; auto).
          unfold cells in Hs. rewrite (proj2 (String.eqb_neq _ _) Hpe) in Hs.
          rewrite (frame_cell_at _ _ _ _ j f eq_refl (proj1 Hwf) Hj) in Hs. exact Hs.
    Qed.

    Lemma simulate_from_history obs lat :
      simulate_from nan tfunc rnd p N ps controls observed policies g = Ok (obs, lat) ->
      exists h, valid_history nan tfunc rnd md n N inp (initial_belief ps) policies g h /\
        shows_states md n N h lat /\ measured rnd md n N inp h obs.
    Proof using Hwf Hg Hp Hn Hlen Hps Hres.
      intros H. destruct (simulate_from_run obs lat H) as (h & lw & args & X & g0 & l & _ & _ & _ & _ & _ & H').
      now exists h.
    Qed.
  End From.
End History.
