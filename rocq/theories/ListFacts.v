(** General lemmas about lists, dictionaries and results. *)
Require Import String Arith Bool List Lia Permutation.
From Verif Require Import PyBase.
Import ListNotations.
Open Scope list_scope.

Lemma smem_In s l : smem s l = true <-> In s l.
Proof.
  unfold smem. rewrite existsb_exists. split.
  - intros [x [Hx He]]. apply String.eqb_eq in He. subst. exact Hx.
  - intros H. exists s. split; [exact H | apply String.eqb_refl].
Qed.

Lemma smem_false s l : smem s l = false <-> ~ In s l.
Proof.
  rewrite <- smem_In. destruct (smem s l); split; congruence.
Qed.

Lemma dget_In {V} (d : dict V) k v : dget d k = Some v -> In (k, v) d.
Proof.
  induction d as [|[k' v'] d IH]; simpl; [discriminate|].
  destruct (String.eqb_spec k k') as [->|Hne]; intros H.
  - injection H as ->. now left.
  - right. auto.
Qed.

Lemma dget_None {V} (d : dict V) k : dget d k = None <-> ~ In k (dkeys d).
Proof.
  induction d as [|[k' v'] d IH]; simpl; [tauto|].
  destruct (String.eqb_spec k k') as [->|Hne].
  - split; [discriminate|]. intros H. exfalso. apply H. now left.
  - rewrite IH. unfold dkeys. intuition.
Qed.

Lemma dget_Some_key {V} (d : dict V) k : In k (dkeys d) -> exists v, dget d k = Some v.
Proof.
  intros H. destruct (dget d k) eqn:E; [eauto|].
  apply dget_None in E. contradiction.
Qed.

Lemma In_dget {V} (d : dict V) k v :
  NoDup (dkeys d) -> In (k, v) d -> dget d k = Some v.
Proof.
  induction d as [|[k' v'] d IH]; simpl; [tauto|].
  intros Hnd [He|Hin].
  - injection He as -> ->. now rewrite String.eqb_refl.
  - inversion Hnd as [|? ? Hni Hnd']; subst.
    destruct (String.eqb_spec k k') as [->|Hne].
    + exfalso. apply Hni. apply (in_map fst) in Hin. exact Hin.
    + auto.
Qed.

Lemma In_dkeys {V} (d : dict V) k v : In (k, v) d -> In k (dkeys d).
Proof. intros H. apply (in_map fst) in H. exact H. Qed.

Lemma dkeys_In {V} (d : dict V) k : In k (dkeys d) -> exists v, In (k, v) d.
Proof.
  intros H. apply in_map_iff in H. destruct H as [[k' v] [He Hin]].
  simpl in He. subst. eauto.
Qed.

Lemma rbind_ok {A B} (m : result A) (k : A -> result B) b :
  rbind m k = Ok b -> exists a, m = Ok a /\ k a = Ok b.
Proof. destruct m; simpl; [eauto | discriminate]. Qed.

Lemma rmap_ok {A B} (f : A -> B) (m : result A) b :
  rmap f m = Ok b -> exists a, m = Ok a /\ b = f a.
Proof. destruct m; simpl; [intros [= <-]; eauto | discriminate]. Qed.

(** [mapM] succeeds iff each element does, with the list of results. *)
Lemma mapM_ok {A B} (f : A -> result B) l ys :
  mapM f l = Ok ys <-> Forall2 (fun x y => f x = Ok y) l ys.
Proof.
  revert ys. induction l as [|x l IH]; intros ys; simpl.
  - split.
    + intros [= <-]. constructor.
    + intros H. inversion H. reflexivity.
  - split.
    + intros H. apply rbind_ok in H. destruct H as [y [Hy H]].
      apply rbind_ok in H. destruct H as [ys' [Hys H]].
      injection H as <-. constructor; [exact Hy|]. now apply IH.
    + intros H. inversion H as [|? y ? ys' Hy Hys]; subst.
      rewrite Hy. simpl. apply IH in Hys. rewrite Hys. reflexivity.
Qed.

Lemma mapM_ext {A B} (f g : A -> result B) l :
  (forall x, In x l -> f x = g x) -> mapM f l = mapM g l.
Proof.
  induction l as [|x l IH]; intros H; simpl; [reflexivity|].
  rewrite (H x) by now left. destruct (g x); simpl; [|reflexivity].
  rewrite IH; [reflexivity|]. intros y Hy. apply H. now right.
Qed.

Lemma mapM_map {A B C} (f : B -> result C) (g : A -> B) l :
  mapM f (map g l) = mapM (fun x => f (g x)) l.
Proof.
  induction l as [|x l IH]; simpl; [reflexivity|]. now rewrite IH.
Qed.

Lemma mapM_Ok_map {A B} (f : A -> B) l : mapM (fun x => Ok (f x)) l = Ok (map f l).
Proof. induction l as [|x l IH]; simpl; [reflexivity|]. now rewrite IH. Qed.

Lemma mapM_length {A B} (f : A -> result B) l ys : mapM f l = Ok ys -> length ys = length l.
Proof.
  intros H. apply mapM_ok in H. induction H; simpl; congruence.
Qed.

Lemma mapM_nth_error {A B} (f : A -> result B) l ys i x :
  mapM f l = Ok ys -> nth_error l i = Some x ->
  exists y, nth_error ys i = Some y /\ f x = Ok y.
Proof.
  intros H. apply mapM_ok in H. revert i. induction H as [|a b l ys Hab H IH]; intros i.
  - destruct i; discriminate.
  - destruct i; simpl.
    + intros [= <-]. eauto.
    + apply IH.
Qed.

Lemma mapM_In {A B} (f : A -> result B) l ys x :
  mapM f l = Ok ys -> In x l -> exists y, f x = Ok y /\ In y ys.
Proof.
  intros H. apply mapM_ok in H. induction H as [|a b l ys Hab H IH]; simpl; [tauto|].
  intros [->|Hin]; [eauto|]. destruct (IH Hin) as [y [? ?]]. eauto.
Qed.

Lemma mapM_In_inv {A B} (f : A -> result B) l ys y :
  mapM f l = Ok ys -> In y ys -> exists x, f x = Ok y /\ In x l.
Proof.
  intros H. apply mapM_ok in H. induction H as [|a b l ys Hab H IH]; simpl; [tauto|].
  intros [->|Hin]; [eauto|]. destruct (IH Hin) as [x [? ?]]. eauto.
Qed.

Lemma mapM_total {A B} (f : A -> result B) l :
  (forall x, In x l -> exists y, f x = Ok y) -> exists ys, mapM f l = Ok ys.
Proof.
  induction l as [|x l IH]; intros H; simpl; [eauto|].
  destruct (H x) as [y Hy]; [now left|]. rewrite Hy. simpl.
  destruct IH as [ys Hys]; [intros z Hz; apply H; now right|].
  rewrite Hys. simpl. eauto.
Qed.

Lemma fold_left_flat_map {A B S} (f : S -> B -> S) (g : A -> list B) l s :
  fold_left (fun s x => fold_left f (g x) s) l s = fold_left f (flat_map g l) s.
Proof.
  revert s. induction l as [|x l IH]; intros s; simpl; [reflexivity|].
  rewrite fold_left_app. apply IH.
Qed.

Lemma fold_left_map {A B S} (f : S -> B -> S) (g : A -> B) l s :
  fold_left (fun s x => f s (g x)) l s = fold_left f (map g l) s.
Proof.
  revert s. induction l as [|x l IH]; intros s; simpl; [reflexivity|]. apply IH.
Qed.

Lemma fold_left_ext_in {A S} (f g : S -> A -> S) l s :
  (forall x s, In x l -> f s x = g s x) -> fold_left f l s = fold_left g l s.
Proof.
  revert s. induction l as [|x l IH]; intros s H; simpl; [reflexivity|].
  rewrite (H x s) by now left. apply IH. intros y s' Hy. apply H. now right.
Qed.

Lemma flat_map_ext_in {A B} (f g : A -> list B) l :
  (forall x, In x l -> f x = g x) -> flat_map f l = flat_map g l.
Proof.
  induction l as [|x l IH]; intros H; simpl; [reflexivity|].
  rewrite (H x) by now left. f_equal. apply IH. intros y Hy. apply H. now right.
Qed.

Lemma flat_map_map {A B C} (f : B -> list C) (g : A -> B) l :
  flat_map f (map g l) = flat_map (fun x => f (g x)) l.
Proof. induction l as [|x l IH]; simpl; [reflexivity|]. now rewrite IH. Qed.

Lemma map_flat_map {A B C} (f : B -> C) (g : A -> list B) l :
  map f (flat_map g l) = flat_map (fun x => map f (g x)) l.
Proof.
  induction l as [|x l IH]; simpl; [reflexivity|]. rewrite map_app. now rewrite IH.
Qed.

Lemma filter_flat_map {A B} (P : B -> bool) (g : A -> list B) l :
  filter P (flat_map g l) = flat_map (fun x => filter P (g x)) l.
Proof.
  induction l as [|x l IH]; simpl; [reflexivity|]. rewrite filter_app. now rewrite IH.
Qed.

Lemma filter_map_comm {A B} (P : B -> bool) (g : A -> B) l :
  filter P (map g l) = map g (filter (fun x => P (g x)) l).
Proof.
  induction l as [|x l IH]; simpl; [reflexivity|].
  destruct (P (g x)); simpl; now rewrite IH.
Qed.

Lemma filter_ext_in_eq {A} (P Q : A -> bool) l :
  (forall x, In x l -> P x = Q x) -> filter P l = filter Q l.
Proof. apply filter_ext_in. Qed.

Lemma filter_all {A} (P : A -> bool) l :
  (forall x, In x l -> P x = true) -> filter P l = l.
Proof.
  induction l as [|x l IH]; intros H; simpl; [reflexivity|].
  rewrite (H x) by now left. f_equal. apply IH. intros y Hy. apply H. now right.
Qed.

Lemma filter_none {A} (P : A -> bool) l :
  (forall x, In x l -> P x = false) -> filter P l = [].
Proof.
  induction l as [|x l IH]; intros H; simpl; [reflexivity|].
  rewrite (H x) by now left. apply IH. intros y Hy. apply H. now right.
Qed.

Lemma flat_map_nil {A B} (g : A -> list B) l :
  (forall x, In x l -> g x = []) -> flat_map g l = [].
Proof.
  induction l as [|x l IH]; intros H; simpl; [reflexivity|].
  rewrite (H x) by now left. apply IH. intros y Hy. apply H. now right.
Qed.

Lemma In_range n k : In k (range n) <-> k < n.
Proof. unfold range. rewrite in_seq. lia. Qed.

Lemma drop_last_range n : drop_last (range n) = range (n - 1).
Proof.
  unfold drop_last, range. destruct n as [|n]; [reflexivity|].
  rewrite seq_S. rewrite removelast_last. f_equal. lia.
Qed.

Lemma nth_error_range n k : k < n -> nth_error (range n) k = Some k.
Proof.
  intros H. unfold range.
  rewrite (nth_error_nth' _ 0) by (rewrite seq_length; exact H).
  now rewrite seq_nth.
Qed.

Lemma enumerate_length {A} (l : list A) : length (enumerate l) = length l.
Proof. unfold enumerate. rewrite combine_length, seq_length. lia. Qed.

Lemma combine_seq_nth {A} (l : list A) s i x :
  In (i, x) (combine (seq s (length l)) l) <-> s <= i /\ nth_error l (i - s) = Some x.
Proof.
  revert s. induction l as [|y l IH]; intros s; simpl.
  - split; [tauto|]. intros [_ H]. destruct (i - s); discriminate.
  - split.
    + intros [H|H].
      * injection H as <- <-. split; [lia|]. now rewrite Nat.sub_diag.
      * apply IH in H. destruct H as [H1 H2]. split; [lia|].
        replace (i - s) with (S (i - S s)) by lia. exact H2.
    + intros [H1 H2]. destruct (Nat.eq_dec i s) as [->|Hne].
      * left. rewrite Nat.sub_diag in H2. simpl in H2. congruence.
      * right. apply IH. split; [lia|].
        replace (i - s) with (S (i - S s)) in H2 by lia. exact H2.
Qed.

Lemma In_enumerate {A} (l : list A) i x : In (i, x) (enumerate l) <-> nth_error l i = Some x.
Proof.
  unfold enumerate. rewrite combine_seq_nth. rewrite Nat.sub_0_r. intuition lia.
Qed.

Lemma nth_error_enumerate {A} (l : list A) i :
  nth_error (enumerate l) i = option_map (fun x => (i, x)) (nth_error l i).
Proof.
  unfold enumerate.
  assert (forall s, nth_error (combine (seq s (length l)) l) i
                    = option_map (fun x => (s + i, x)) (nth_error l i)) as H.
  { revert i. induction l as [|x l IH]; intros i s; simpl.
    - destruct i; reflexivity.
    - destruct i; simpl; [now rewrite Nat.add_0_r|].
      rewrite IH. destruct (nth_error l i); simpl; [|reflexivity].
      now rewrite Nat.add_succ_r. }
  apply H.
Qed.

Lemma list_ext {A} (l1 l2 : list A) :
  (forall i, nth_error l1 i = nth_error l2 i) -> l1 = l2.
Proof.
  revert l2. induction l1 as [|x l1 IH]; intros [|y l2] H.
  - reflexivity.
  - specialize (H 0). discriminate.
  - specialize (H 0). discriminate.
  - pose proof (H 0) as H0. simpl in H0. injection H0 as ->. f_equal.
    apply IH. intros i. apply (H (S i)).
Qed.

Lemma map_fst_enumerate {A} (l : list A) : map fst (enumerate l) = range (length l).
Proof.
  unfold enumerate, range. apply list_ext. intros i.
  rewrite nth_error_map.
  destruct (Nat.lt_ge_cases i (length l)) as [H|H].
  - pose proof (nth_error_enumerate l i) as E. unfold enumerate in E. rewrite E.
    destruct (nth_error l i) eqn:E2; simpl.
    + symmetry. now apply nth_error_range.
    + apply nth_error_None in E2. lia.
  - rewrite (proj2 (nth_error_None _ _)); [|rewrite combine_length, seq_length; lia].
    symmetry. apply nth_error_None. rewrite seq_length. exact H.
Qed.

Lemma map_snd_enumerate {A} (l : list A) : map snd (enumerate l) = l.
Proof.
  unfold enumerate. generalize 0. induction l as [|x l IH]; intros n; simpl; [reflexivity|].
  now rewrite IH.
Qed.

Lemma NoDup_app_intro {A} (l1 l2 : list A) :
  NoDup l1 -> NoDup l2 -> (forall x, In x l1 -> In x l2 -> False) -> NoDup (l1 ++ l2).
Proof.
  induction l1 as [|x l1 IH]; simpl; intros H1 H2 H; [exact H2|].
  inversion H1 as [|? ? Hni Hnd]; subst. constructor.
  - rewrite in_app_iff. intros [Hin|Hin]; [contradiction|].
    apply (H x); [now left | exact Hin].
  - apply IH; [exact Hnd | exact H2|]. intros y Hy1 Hy2. apply (H y); [now right | exact Hy2].
Qed.

Lemma NoDup_flat_map {A B} (g : A -> list B) l :
  NoDup l -> (forall x, In x l -> NoDup (g x)) ->
  (forall x y b, In x l -> In y l -> In b (g x) -> In b (g y) -> x = y) ->
  NoDup (flat_map g l).
Proof.
  induction l as [|x l IH]; simpl; intros Hnd Hg Hinj; [constructor|].
  inversion Hnd as [|? ? Hni Hnd']; subst. apply NoDup_app_intro.
  - apply Hg. now left.
  - apply IH; [exact Hnd' | intros y Hy; apply Hg; now right|].
    intros y z b Hy Hz. apply Hinj; now right.
  - intros b Hb1 Hb2. apply in_flat_map in Hb2. destruct Hb2 as [y [Hy Hb2]].
    assert (x = y) by (eapply Hinj; [now left | now right | exact Hb1 | exact Hb2]).
    subst. contradiction.
Qed.

Lemma NoDup_map_inj {A B} (f : A -> B) l :
  NoDup l -> (forall x y, In x l -> In y l -> f x = f y -> x = y) -> NoDup (map f l).
Proof.
  induction l as [|x l IH]; simpl; intros Hnd Hinj; [constructor|].
  inversion Hnd as [|? ? Hni Hnd']; subst. constructor.
  - intros H. apply in_map_iff in H. destruct H as [y [He Hy]].
    assert (y = x) by (apply Hinj; [now right | now left | exact He]). subst. contradiction.
  - apply IH; [exact Hnd'|]. intros y z Hy Hz. apply Hinj; now right.
Qed.

Lemma NoDup_range n : NoDup (range n).
Proof. apply seq_NoDup. Qed.

Lemma NoDup_map_fst_combine {A B} (l1 : list A) (l2 : list B) :
  length l1 = length l2 -> map fst (combine l1 l2) = l1.
Proof.
  revert l2. induction l1 as [|x l1 IH]; intros [|y l2]; simpl; intros H; try discriminate;
    [reflexivity|]. injection H as H. now rewrite IH.
Qed.

Lemma map_snd_combine {A B} (l1 : list A) (l2 : list B) :
  length l1 = length l2 -> map snd (combine l1 l2) = l2.
Proof.
  revert l2. induction l1 as [|x l1 IH]; intros [|y l2]; simpl; intros H; try discriminate;
    [reflexivity|]. injection H as H. now rewrite IH.
Qed.

Lemma nth_error_combine {A B} (l1 : list A) (l2 : list B) i a b :
  nth_error (combine l1 l2) i = Some (a, b) <->
  nth_error l1 i = Some a /\ nth_error l2 i = Some b.
Proof.
  revert l2 i. induction l1 as [|x l1 IH]; intros l2 i; simpl.
  - destruct i; (split; [discriminate | intros [H _]; discriminate]).
  - destruct l2 as [|y l2].
    + destruct i; simpl; (split; [discriminate | intros [_ H]; discriminate]).
    + destruct i; simpl.
      * split; [intros [= -> ->]; auto | intros [[= ->] [= ->]]; reflexivity].
      * apply IH.
Qed.

Lemma In_nth_error_iff {A} (l : list A) x : In x l <-> exists i, nth_error l i = Some x.
Proof.
  split; [apply In_nth_error|]. intros [i Hi]. eapply nth_error_In; eassumption.
Qed.

Lemma nth_of_nth_error {A} (l : list A) i x d : nth_error l i = Some x -> nth i l d = x.
Proof.
  revert i. induction l as [|y l IH]; intros [|i]; simpl; try discriminate.
  - now intros [= ->].
  - apply IH.
Qed.

Lemma nth_error_of_nth {A} (l : list A) i d : i < length l -> nth_error l i = Some (nth i l d).
Proof. apply nth_error_nth'. Qed.
