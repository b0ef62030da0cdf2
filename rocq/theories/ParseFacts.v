(** Lemmas about parameter parsing. *)
Require Import String Ascii Arith ZArith Bool List Lia.
From Verif Require Import PyBase ListFacts StringFacts ModelSpec ProcessModel CheckModel SpecModel
  ProcessModelFacts AcceptFacts ParamsIndex SpecIndex IndexFacts SpecFacts ParseParams SpecParse.
Import ListNotations.
Open Scope string_scope.
Open Scope list_scope.
Open Scope nat_scope.

(** ** Values of labels *)

Lemma cat_eqb_spec a b : cat_eqb a b = true <-> a = b.
Proof. destruct a, b; simpl; split; congruence. Qed.

Definition label_eq_dec (a b : label) : {a = b} + {a <> b}.
Proof. repeat decide equality. Defined.

Fixpoint val_of {A} (zero : A) (idx : list label) (vec : list A) (lb : label) : A :=
  match idx, vec with
  | l :: idx', x :: vec' => if label_eq_dec lb l then x else val_of zero idx' vec' lb
  | _, _ => zero
  end.

Lemma val_of_map {A} (zero : A) idx vec :
  NoDup idx -> length vec = length idx -> vec = map (val_of zero idx vec) idx.
Proof.
  revert vec. induction idx as [|l idx IH]; intros [|x vec] Hnd Hl; simpl in *; try discriminate.
  - reflexivity.
  - inversion_clear Hnd as [|? ? Hni Hnd'].
    destruct (label_eq_dec l l) as [_|n]; [|congruence]. f_equal.
    rewrite (IH vec Hnd') at 1 by lia. apply map_ext_in. intros lb Hlb.
    destruct (label_eq_dec lb l); [subst; contradiction|reflexivity].
Qed.

Lemma labelled_map {A} idx (val : label -> A) lb :
  In lb idx -> labelled idx (map val idx) lb (val lb).
Proof.
  intros H. apply In_nth_error in H. destruct H as [i Hi]. exists i.
  split; [exact Hi|]. now apply map_nth_error.
Qed.

(** The values at the selected positions are the values of the selected labels. *)
Lemma gather_positions {A} (zero : A) (val : label -> A) sel idx :
  gather zero (map val idx) (positions sel idx) = map val (filter sel idx).
Proof.
  unfold gather, positions, enumerate. rewrite map_map.
  assert (forall pre, map (fun x => nth (fst x) (pre ++ map val idx) zero)
      (filter (fun il => sel (snd il)) (combine (seq (length pre) (length idx)) idx))
      = map val (filter sel idx)) as H; [|exact (H [])].
  induction idx as [|l idx IH]; intros pre; simpl; [reflexivity|].
  specialize (IH (pre ++ [val l])). rewrite app_length in IH. simpl in IH.
  rewrite Nat.add_1_r, <- app_assoc in IH. simpl in IH.
  destruct (sel l); simpl; [|exact IH]. f_equal; [|exact IH].
  now rewrite app_nth2, Nat.sub_diag by lia.
Qed.

Lemma filter_all {A} (P : A -> bool) l : (forall x, In x l -> P x = true) -> filter P l = l.
Proof.
  induction l as [|x l IH]; intros H; simpl; [reflexivity|].
  rewrite (H x) by now left. f_equal. apply IH. intros; apply H. now right.
Qed.

Lemma filter_none {A} (P : A -> bool) l : (forall x, In x l -> P x = false) -> filter P l = [].
Proof.
  induction l as [|x l IH]; intros H; simpl; [reflexivity|].
  rewrite (H x) by now left. apply IH. intros; apply H. now right.
Qed.

Lemma filter_cat_same c l : all_cat c l -> filter (fun lb => cat_eqb (lb_cat lb) c) l = l.
Proof. intros H. apply filter_all. intros x Hx. apply cat_eqb_spec. now apply H. Qed.

Lemma filter_cat_other c c' l :
  all_cat c' l -> c' <> c -> filter (fun lb => cat_eqb (lb_cat lb) c) l = [].
Proof.
  intros H Hne. apply filter_none. intros x Hx. rewrite (H x Hx).
  destruct (cat_eqb c' c) eqn:E; [|reflexivity]. apply cat_eqb_spec in E. contradiction.
Qed.

Ltac filter_block :=
  unfold get_params_index; rewrite !filter_app;
  repeat match goal with
  | |- context [filter (fun lb => cat_eqb (lb_cat lb) ?c) ?l] =>
      first [ rewrite (filter_cat_same c l) by auto with cats
            | erewrite (filter_cat_other c _ l) by (eauto with cats; discriminate) ]
  end; rewrite ?app_nil_r; try reflexivity.

Section Blocks.
  Variables (u : list urow) (l : labels) (d : dims) (t : trans_info).
  Let idx := get_params_index u l d t.
  Let sel c := filter (fun lb => cat_eqb (lb_cat lb) c) idx.

  Lemma block_controls : sel CControls = control_labels (l_controls l) u.
  Proof. unfold sel, idx. filter_block. Qed.
  Lemma block_loadings : sel CLoadings = loading_labels (l_latent l) u.
  Proof. unfold sel, idx. filter_block. Qed.
  Lemma block_meas : sel CMeasSds = meas_sd_labels u.
  Proof. unfold sel, idx. filter_block. Qed.
  Lemma block_shock : sel CShockSds = shock_sd_labels (l_periods l) (l_latent l).
  Proof. unfold sel, idx. filter_block. Qed.
  Lemma block_init : sel CInitStates = initial_mean_labels (n_mixtures d) (l_latent l).
  Proof. unfold sel, idx. filter_block. Qed.
  Lemma block_weights : sel CMixWeights = mixture_weight_labels (n_mixtures d).
  Proof. unfold sel, idx. filter_block. Qed.
  Lemma block_chol : sel CInitChol = initial_chol_labels (n_mixtures d) (l_latent l).
  Proof. unfold sel, idx. filter_block. Qed.
  Lemma block_trans : sel CTransition = transition_labels (t_param_names t) (l_periods l).
  Proof. unfold sel, idx. filter_block. Qed.
End Blocks.

Lemma mapM_all_ok {A B} (f : A -> result B) (g : A -> B) l :
  (forall x, In x l -> f x = Ok (g x)) -> mapM f l = Ok (map g l).
Proof.
  induction l as [|x l IH]; intros H; simpl; [reflexivity|].
  rewrite (H x) by now left. simpl. rewrite IH; [reflexivity|]. intros y Hy. apply H. now right.
Qed.

(** ** Reshaping *)

Lemma chunks_flat_map {A B} (g : B -> list A) k l :
  (forall x, In x l -> length (g x) = k) -> chunks (length l) k (flat_map g l) = map g l.
Proof.
  unfold chunks. induction l as [|x l IH]; intros H; simpl; [reflexivity|].
  pose proof (H x (or_introl eq_refl)) as Hx.
  rewrite firstn_app, skipn_app, Hx, Nat.sub_diag.
  rewrite (firstn_all2 (g x)), (skipn_all2 (g x)) by lia. simpl.
  rewrite app_nil_r, IH; [reflexivity|]. intros y Hy. apply H. now right.
Qed.

Lemma length_flat_map_const {A B} (g : B -> list A) k l :
  (forall x, In x l -> length (g x) = k) -> length (flat_map g l) = length l * k.
Proof.
  induction l as [|x l IH]; intros H; simpl; [reflexivity|].
  rewrite app_length, (H x) by now left. rewrite IH; [reflexivity|]. intros y Hy. apply H. now right.
Qed.

Lemma reshape_cols_flat_map {A B} (g : B -> list A) k l :
  k <> 0 -> (forall x, In x l -> length (g x) = k) ->
  reshape_cols k (flat_map g l) = Ok (map g l).
Proof.
  intros Hk H. unfold reshape_cols. rewrite (length_flat_map_const g k l H).
  destruct (Nat.eqb_spec k 0); [contradiction|].
  rewrite Nat.mod_mul, Nat.div_mul by assumption. simpl. now rewrite chunks_flat_map.
Qed.

Lemma reshape_rows_flat_map {A B} (g : B -> list A) k n l :
  n = length l -> n <> 0 -> (forall x, In x l -> length (g x) = k) ->
  reshape_rows n (flat_map g l) = Ok (map g l).
Proof.
  intros -> Hn H. unfold reshape_rows. rewrite (length_flat_map_const g k l H).
  destruct (Nat.eqb_spec (length l) 0); [contradiction|].
  rewrite Nat.mul_comm, Nat.mod_mul, Nat.div_mul by assumption. simpl.
  now rewrite chunks_flat_map.
Qed.

(** ** Scatter *)

Lemma list_set_app {A} (pre post : list A) x v :
  list_set (length pre) v (pre ++ x :: post) = pre ++ v :: post.
Proof. induction pre as [|y pre IH]; simpl; [reflexivity|]. now rewrite IH. Qed.

Lemma scatter_mask {A} (zero : A) (xs : list (bool * A)) :
  scatter (map fst (filter snd (enumerate (map fst xs)))) (map snd (filter fst xs))
    (repeat zero (length xs))
  = Ok (map (fun bx : bool * A => if fst bx then snd bx else zero) xs).
Proof.
  unfold scatter, enumerate. rewrite !map_length.
  assert (forall s, length (filter (@snd nat bool) (combine (seq s (length xs)) (map fst xs)))
                    = length (filter fst xs)) as Hlen.
  { induction xs as [|[b x] xs IH]; intros s; simpl; [reflexivity|].
    destruct b; simpl; now rewrite IH. }
  rewrite Hlen, Nat.eqb_refl. f_equal.
  assert (forall pre, fold_left (fun a iv => list_set (fst iv) (snd iv) a)
      (combine (map fst (filter snd (combine (seq (length pre) (length xs)) (map fst xs))))
               (map snd (filter fst xs))) (pre ++ repeat zero (length xs))
      = pre ++ map (fun bx : bool * A => if fst bx then snd bx else zero) xs) as H; [|exact (H [])].
  clear Hlen. induction xs as [|[b x] xs IH]; intros pre; simpl; [reflexivity|].
  assert (S (length pre) = length (pre ++ [x])) as E1 by (rewrite app_length; simpl; lia).
  destruct b; simpl.
  - rewrite list_set_app. specialize (IH (pre ++ [x])).
    rewrite <- E1, <- !app_assoc in IH. exact IH.
  - specialize (IH (pre ++ [zero])). rewrite app_length in IH. simpl in IH.
    rewrite Nat.add_1_r, <- !app_assoc in IH. exact IH.
Qed.

(** ** Masks *)

Lemma mask_select_map {A B} (b : B -> bool) (g : B -> A) l :
  mask_select (map b l) (map g l) = map g (filter b l).
Proof.
  unfold mask_select. induction l as [|x l IH]; simpl; [reflexivity|].
  destruct (b x); simpl; now rewrite IH.
Qed.

Lemma mask_set_map {A B} (b : B -> bool) (g : B -> A) (dflt : A) l :
  mask_set (map b l) (map g (filter b l)) (map (fun _ => dflt) l)
  = map (fun x => if b x then g x else dflt) l.
Proof.
  induction l as [|x l IH]; simpl; [reflexivity|].
  destruct (b x); simpl; now rewrite IH.
Qed.

Lemma count_true_map {B} (b : B -> bool) l : count_true (map b l) = length (filter b l).
Proof.
  unfold count_true. induction l as [|x l IH]; simpl; [reflexivity|].
  destruct (b x); simpl; now rewrite IH.
Qed.

Lemma repeat_map {A B} (x : A) (l : list B) : repeat x (length l) = map (fun _ => x) l.
Proof. induction l as [|y l IH]; simpl; [reflexivity|]. now rewrite IH. Qed.

(** ** Triangular matrices *)

Definition mget {A} (zero : A) (m : list (list A)) (i j : nat) : A := nth j (nth i m []) zero.
Definition square {A} (n : nat) (m : list (list A)) : Prop :=
  length m = n /\ forall i, i < n -> length (nth i m []) = n.

Lemma list_set_length {A} i (v : A) l : length (list_set i v l) = length l.
Proof. revert i. induction l as [|x l IH]; intros [|i]; simpl; auto. Qed.

Lemma list_set_nth {A} (zero : A) i v l j :
  i < length l -> nth j (list_set i v l) zero = if j =? i then v else nth j l zero.
Proof.
  revert i j. induction l as [|x l IH]; intros [|i] [|j]; simpl; intros H; try lia; auto.
  apply IH. lia.
Qed.

Lemma mat_set_eq {A} a b (v : A) m :
  a < length m -> mat_set (a, b) v m = list_set a (list_set b v (nth a m [])) m.
Proof.
  unfold mat_set. simpl fst. simpl snd. revert a.
  induction m as [|r m IH]; intros a Ha; simpl in Ha; [lia|].
  destruct a as [|a]; simpl; [reflexivity|]. specialize (IH a).
  destruct (nth_error m a) as [row|] eqn:E.
  - simpl. f_equal. apply IH. lia.
  - apply nth_error_None in E. lia.
Qed.

Lemma mat_set_square {A} n a b (v : A) m :
  a < n -> square n m -> square n (mat_set (a, b) v m).
Proof.
  intros Ha [Hl Hr]. rewrite mat_set_eq by lia. split; [now rewrite list_set_length|].
  intros i Hi. rewrite list_set_nth by lia. destruct (i =? a) eqn:E; [|now apply Hr].
  apply Nat.eqb_eq in E. subst. now rewrite list_set_length, Hr.
Qed.

Lemma mat_set_get {A} (zero : A) n a b v m i j :
  a < n -> b < n -> square n m ->
  mget zero (mat_set (a, b) v m) i j
  = if (i =? a) && (j =? b) then v else mget zero m i j.
Proof.
  intros Ha Hb [Hl Hr]. rewrite mat_set_eq by lia. unfold mget.
  rewrite list_set_nth by lia. destruct (Nat.eqb_spec i a) as [->|Hia]; simpl; [|reflexivity].
  rewrite list_set_nth; [reflexivity|]. now rewrite Hr.
Qed.

Lemma In_tril n i j : In (i, j) (tril_indices n) <-> j <= i < n.
Proof.
  unfold tril_indices. rewrite in_flat_map. split.
  - intros [a [Ha H]]. apply in_seq in Ha. apply in_map_iff in H.
    destruct H as [b [[= <- <-] Hb]]. apply in_seq in Hb. lia.
  - intros H. exists i. rewrite in_seq, in_map_iff. split; [lia|].
    exists j. rewrite in_seq. split; [reflexivity|lia].
Qed.

Lemma fold_mat_set {A} (zero : A) n (g : nat * nat -> A) ijs m :
  (forall ij, In ij ijs -> fst ij < n /\ snd ij < n) -> square n m ->
  square n (fold_left (fun m ij => mat_set ij (g ij) m) ijs m) /\
  forall i j,
    (In (i, j) ijs ->
       mget zero (fold_left (fun m ij => mat_set ij (g ij) m) ijs m) i j = g (i, j)) /\
    (~ In (i, j) ijs ->
       mget zero (fold_left (fun m ij => mat_set ij (g ij) m) ijs m) i j = mget zero m i j).
Proof.
  revert m. induction ijs as [|[a b] ijs IH]; intros m H Hm; simpl.
  - split; [exact Hm|]. intros i j. tauto.
  - destruct (H (a, b) (or_introl eq_refl)) as [Ha Hb]. simpl in Ha, Hb.
    destruct (IH (mat_set (a, b) (g (a, b)) m)) as [Hs Hg].
    { intros ij Hij. apply H. now right. }
    { now apply mat_set_square. }
    split; [exact Hs|]. intros i j. destruct (Hg i j) as [Hin Hni].
    assert ({In (i, j) ijs} + {~ In (i, j) ijs}) as [Hi|Hi]
      by (apply in_dec; decide equality; apply Nat.eq_dec).
    + split; [intros _; now apply Hin|]. intros Hc. exfalso. apply Hc. now right.
    + rewrite (Hni Hi), (mat_set_get zero n) by assumption.
      destruct (Nat.eqb_spec i a) as [->|Hia]; simpl; [destruct (Nat.eqb_spec j b) as [->|Hjb]|].
      * split; [reflexivity|]. intros Hc. exfalso. apply Hc. now left.
      * split; [intros [[= E]|Hc]; [congruence|contradiction]|]. reflexivity.
      * split; [intros [[= E]|Hc]; [congruence|contradiction]|]. reflexivity.
Qed.

Lemma mget_repeat {A} (zero : A) n i j : mget zero (repeat (repeat zero n) n) i j = zero.
Proof.
  unfold mget. destruct (Nat.lt_ge_cases i n) as [H|H].
  - rewrite (nth_indep _ _ (repeat zero n)) by (rewrite repeat_length; exact H).
    rewrite nth_repeat. apply nth_repeat.
  - rewrite (nth_overflow (repeat _ n)) by (rewrite repeat_length; exact H). now destruct j.
Qed.

Lemma square_repeat {A} (zero : A) n : square n (repeat (repeat zero n) n).
Proof.
  split; [apply repeat_length|]. intros i Hi.
  rewrite (nth_indep _ _ (repeat zero n)) by (rewrite repeat_length; exact Hi).
  rewrite nth_repeat. apply repeat_length.
Qed.

Lemma combine_map_r {A B} (g : A -> B) l : combine l (map g l) = map (fun x => (x, g x)) l.
Proof. induction l as [|x l IH]; simpl; [reflexivity|]. now rewrite IH. Qed.

Lemma upper_chol_spec {A} (zero : A) n (g : nat * nat -> A) :
  upper_chol_of_params zero n (map g (tril_indices n))
  = Ok (map (fun r => map (fun c => if r <=? c then g (c, r) else zero) (seq 0 n)) (seq 0 n)).
Proof.
  unfold upper_chol_of_params. rewrite map_length, Nat.eqb_refl. f_equal.
  rewrite combine_map_r, <- (fold_left_map (fun m iv => mat_set (fst iv) (snd iv) m) (fun x => (x, g x))). simpl.
  destruct (fold_mat_set zero n g (tril_indices n) (repeat (repeat zero n) n)) as [_ Hg].
  { intros [i j] H. apply In_tril in H. simpl. lia. }
  { apply square_repeat. }
  unfold transpose. apply map_ext_in. intros r Hr. apply map_ext_in. intros c Hc.
  apply in_seq in Hr, Hc. fold (mget zero (fold_left (fun m ij => mat_set ij (g ij) m)
     (tril_indices n) (repeat (repeat zero n) n)) c r).
  destruct (Hg c r) as [Hin Hni]. destruct (Nat.leb_spec r c).
  - apply Hin. apply In_tril. lia.
  - rewrite Hni; [apply mget_repeat|]. rewrite In_tril. lia.
Qed.

(** The labels of one mixture element are in the order of the lower triangle. *)
Lemma chol_block factors e :
  flat_map (fun rf =>
      flat_map (fun cf =>
        if fst cf <=? fst rf
        then [(CInitChol, 0, mixture_name e, cov_name (snd rf) (snd cf))] else [])
      (enumerate factors)) (enumerate factors)
  = map (fun ij => (CInitChol, 0, mixture_name e, cov_name (nth (fst ij) factors "")
                                                           (nth (snd ij) factors "")))
        (tril_indices (length factors)).
Proof.
  unfold tril_indices. rewrite map_flat_map.
  assert (enumerate factors = map (fun i => (i, nth i factors "")) (seq 0 (length factors))) as ->.
  { unfold enumerate. rewrite <- combine_map_r. f_equal.
    apply list_ext. intros i. destruct (Nat.lt_ge_cases i (length factors)) as [H|H].
    - rewrite (nth_error_nth' factors "" H). symmetry. rewrite nth_error_map.
      rewrite (nth_error_nth' _ 0) by (rewrite seq_length; exact H). simpl.
      now rewrite seq_nth.
    - rewrite (proj2 (nth_error_None factors i) H). symmetry. apply nth_error_None.
      now rewrite map_length, seq_length. }
  rewrite flat_map_map. apply flat_map_ext_in. intros i Hi. apply in_seq in Hi.
  rewrite flat_map_map, map_map. simpl.
  replace (length factors) with (S i + (length factors - S i)) by lia.
  rewrite seq_app, flat_map_app.
  rewrite (flat_map_ext_in _ (fun j => [(CInitChol, 0, mixture_name e,
             cov_name (nth i factors "") (nth j factors ""))]) (seq 0 (S i))).
  2:{ intros j Hj. apply in_seq in Hj. destruct (Nat.leb_spec j i); [reflexivity|lia]. }
  rewrite (flat_map_ext_in _ (fun _ => []) (seq (0 + S i) _)).
  2:{ intros j Hj. apply in_seq in Hj. destruct (Nat.leb_spec j i); [lia|reflexivity]. }
  assert (forall {X Y} (l : list X), flat_map (fun _ => @nil Y) l = []) as Hnil.
  { induction l; simpl; auto. }
  assert (forall {X Y} (h : X -> Y) (l : list X), flat_map (fun x => [h x]) l = map h l) as Hone.
  { induction l; simpl; congruence. }
  rewrite Hnil, app_nil_r. apply Hone.
Qed.

(** ** The parsed quantities in terms of the values of labels *)

Section Parsed.
  Variable A : Type.
  Variables (zero one : A) (flog : A -> A).
  Variable val : label -> A.
  Variables (md : model_dict) (p : processed).
  Hypothesis Hwf : wf_dicts md.
  Hypothesis Hp : process_model md = Ok p.
  Let idx := params_index_of p.
  Let vec := map val idx.
  Let info := create_parsing_info idx (p_update p) (p_labels p) (p_anch p).

  Lemma latent_nonempty : latent_of md <> [].
  Proof.
    destruct (p_dims_eq md p Hp) as [_ [_ [_ [_ [[[f [fs [H _]]] _] _]]]]].
    unfold latent_of. destruct (md_factors md); [destruct H|discriminate].
  Qed.

  Lemma parsed_states n_obs :
    get_initial_states zero vec info (p_dims p) n_obs
    = Ok (repeat (map (fun e => map (fun f => val (CInitStates, 0, mixture_name e, f))
                                    (latent_of md)) (range (n_mixtures_of md))) n_obs).
  Proof.
    unfold get_initial_states, info. simpl pi_initial_states. unfold vec.
    rewrite gather_positions. unfold idx, params_index_of. rewrite block_init.
    destruct (p_labels_eq md p Hp) as [-> _].
    destruct (p_dims_eq md p Hp) as [-> [_ [_ [-> _]]]].
    unfold initial_mean_labels. rewrite map_flat_map.
    rewrite (flat_map_ext_in _ (fun e => map (fun f => val (CInitStates, 0, mixture_name e, f))
                                    (latent_of md))) by (intros; apply map_map).
    rewrite (length_flat_map_const _ (length (latent_of md))) by (intros; apply map_length).
    unfold range at 1. rewrite seq_length, Nat.eqb_refl. repeat f_equal.
    rewrite <- (seq_length (n_mixtures_of md) 0) at 1.
    apply chunks_flat_map. intros; apply map_length.
  Qed.

  Lemma parsed_chols n_obs :
    n_mixtures_of md <> 0 ->
    get_initial_upper_chols zero vec info (p_dims p) n_obs
    = Ok (repeat (map (fun e =>
            map (fun r => map (fun c =>
                if r <=? c
                then val (CInitChol, 0, mixture_name e,
                          cov_name (nth c (latent_of md) "") (nth r (latent_of md) ""))
                else zero) (seq 0 (length (latent_of md))))
              (seq 0 (length (latent_of md)))) (range (n_mixtures_of md))) n_obs).
  Proof.
    intros Hm. unfold get_initial_upper_chols, info. simpl pi_initial_cholcovs. unfold vec.
    rewrite gather_positions. unfold idx, params_index_of. rewrite block_chol.
    destruct (p_labels_eq md p Hp) as [-> _].
    destruct (p_dims_eq md p Hp) as [-> [_ [_ [-> _]]]].
    unfold initial_chol_labels. rewrite map_flat_map.
    rewrite (flat_map_ext_in _ (fun e => map (fun ij => val (CInitChol, 0, mixture_name e,
        cov_name (nth (fst ij) (latent_of md) "") (nth (snd ij) (latent_of md) "")))
        (tril_indices (length (latent_of md))))) by (intros; rewrite chol_block; apply map_map).
    rewrite (reshape_rows_flat_map _ (length (tril_indices (length (latent_of md)))));
      [|unfold range; now rewrite seq_length|exact Hm|intros; apply map_length].
    simpl. rewrite mapM_map.
    rewrite (mapM_all_ok _ (fun e =>
            map (fun r => map (fun c =>
                if r <=? c
                then val (CInitChol, 0, mixture_name e,
                          cov_name (nth c (latent_of md) "") (nth r (latent_of md) ""))
                else zero) (seq 0 (length (latent_of md))))
              (seq 0 (length (latent_of md))))).
    - reflexivity.
    - intros e _. apply (upper_chol_spec zero _ (fun ij => val (CInitChol, 0, mixture_name e,
        cov_name (nth (fst ij) (latent_of md) "") (nth (snd ij) (latent_of md) "")))).
  Qed.

  Lemma parsed_weights n_obs :
    get_initial_log_mixture_weights zero flog vec info n_obs
    = repeat (map (fun e => flog (val (CMixWeights, 0, mixture_name e, "-")))
                  (range (n_mixtures_of md))) n_obs.
  Proof.
    unfold get_initial_log_mixture_weights, info. simpl pi_mixture_weights. unfold vec.
    rewrite gather_positions. unfold idx, params_index_of. rewrite block_weights.
    destruct (p_dims_eq md p Hp) as [_ [_ [_ [-> _]]]].
    unfold mixture_weight_labels. now rewrite !map_map.
  Qed.

  Lemma parsed_controls :
    get_control_params zero vec info (p_dims p)
    = Ok (map (fun r => map (fun c => val (CControls, u_period r, u_var r, c))
                            ("constant" :: controls_of md)) (p_update p)).
  Proof.
    unfold get_control_params, info. simpl pi_controls. unfold vec.
    rewrite gather_positions. unfold idx, params_index_of. rewrite block_controls.
    destruct (p_labels_eq md p Hp) as [_ [_ [-> _]]].
    destruct (p_dims_eq md p Hp) as [_ [_ [-> _]]].
    unfold control_labels. rewrite map_flat_map.
    rewrite (flat_map_ext_in _ (fun r => map (fun c => val (CControls, u_period r, u_var r, c))
                            ("constant" :: controls_of md))) by (intros; apply map_map).
    apply reshape_cols_flat_map; [lia|]. intros; now rewrite map_length.
  Qed.

  Lemma parsed_meas_sds :
    get_meas_sds zero vec info = map (fun r => val (CMeasSds, u_period r, u_var r, "-")) (p_update p).
  Proof.
    unfold get_meas_sds, info. simpl pi_meas_sds. unfold vec.
    rewrite gather_positions. unfold idx, params_index_of. rewrite block_meas.
    unfold meas_sd_labels. now rewrite map_map.
  Qed.

  Lemma parsed_shock_sds :
    get_shock_sds zero vec info (p_dims p)
    = Ok (map (fun t => map (fun f => val (CShockSds, t, f, "-")) (latent_of md))
              (seq 0 (n_periods (p_dims p) - 1))).
  Proof.
    unfold get_shock_sds, info. simpl pi_shock_sds. unfold vec.
    rewrite gather_positions. unfold idx, params_index_of. rewrite block_shock.
    destruct (p_labels_eq md p Hp) as [-> [_ [_ [-> _]]]].
    destruct (p_dims_eq md p Hp) as [-> _].
    unfold shock_sd_labels. rewrite drop_last_range, map_flat_map.
    rewrite (flat_map_ext_in _ (fun t => map (fun f => val (CShockSds, t, f, "-")) (latent_of md)))
      by (intros; apply map_map).
    apply reshape_cols_flat_map; [|intros; now rewrite map_length].
    pose proof latent_nonempty. destruct (latent_of md); simpl; congruence.
  Qed.

  Lemma parsed_loadings :
    get_loadings zero vec info
    = Ok (map (fun r => map (fun f => if u_flag r f
                                      then val (CLoadings, u_period r, u_var r, f) else zero)
                            (latent_of md)) (p_update p)).
  Proof.
    unfold get_loadings, info. simpl pi_loadings. simpl pi_load_flat_indices.
    simpl pi_load_n_rows. simpl pi_load_n_cols. unfold vec.
    rewrite gather_positions. unfold idx, params_index_of. rewrite block_loadings.
    destruct (p_labels_eq md p Hp) as [-> _].
    set (xs := flat_map (fun r => map (fun f => (u_flag r f, val (CLoadings, u_period r, u_var r, f)))
                                      (latent_of md)) (p_update p)).
    assert (concat (map (fun r => map (u_flag r) (latent_of md)) (p_update p)) = map fst xs) as E1.
    { unfold xs. rewrite map_flat_map, <- flat_map_concat_map. apply flat_map_ext_in.
      intros r _. rewrite map_map. now apply map_ext. }
    assert (map val (loading_labels (latent_of md) (p_update p)) = map snd (filter fst xs)) as E2.
    { unfold xs, loading_labels. rewrite map_flat_map. clear. generalize (p_update p) as u.
      induction u as [|r u IH]; simpl; [reflexivity|].
      rewrite filter_app, map_app. f_equal; [|exact IH]. rewrite map_flat_map.
      clear. generalize (latent_of md) as l. induction l as [|f l IH]; simpl; [reflexivity|].
      destruct (u_flag r f); simpl; now rewrite IH. }
    assert (length (p_update p) * length (latent_of md) = length xs) as E3.
    { unfold xs. symmetry. apply length_flat_map_const. intros; apply map_length. }
    unfold true_positions. rewrite E1, E2, E3, scatter_mask. simpl. f_equal.
    unfold xs. rewrite map_flat_map.
    rewrite (flat_map_ext_in _ (fun r => map (fun f => if u_flag r f
                                      then val (CLoadings, u_period r, u_var r, f) else zero)
                            (latent_of md))) by (intros; apply map_map).
    apply chunks_flat_map. intros; apply map_length.
  Qed.

  Lemma filter_transition_labels f fs :
    In (f, fs) (md_factors md) ->
    filter (fun lb => cat_eqb (lb_cat lb) CTransition && String.eqb (lb_name1 lb) f) idx
    = flat_map (fun t => map (fun n => (CTransition, t, f, n))
                 (transition_parameters (latent_of md ++ observed_of md) (fs_transition fs)))
        (seq 0 (n_periods (p_dims p) - 1)).
  Proof.
    intros Hin.
    assert (forall l : list label,
      filter (fun lb => cat_eqb (lb_cat lb) CTransition && String.eqb (lb_name1 lb) f) l
      = filter (fun lb => String.eqb (lb_name1 lb) f)
          (filter (fun lb => cat_eqb (lb_cat lb) CTransition) l)) as Hff.
    { induction l as [|x l IH]; simpl; [reflexivity|].
      destruct (cat_eqb (lb_cat x) CTransition); simpl; [|exact IH].
      destruct (String.eqb (lb_name1 x) f); now rewrite IH. }
    rewrite Hff. unfold idx, params_index_of. rewrite block_trans.
    destruct (process_tinfo md p Hwf Hp) as [-> _].
    destruct (p_labels_eq md p Hp) as [_ [_ [_ [-> _]]]]. rewrite drop_last_range || idtac.
    unfold transition_labels. rewrite drop_last_range, flat_map_map. simpl.
    set (g := fun ffs : string * factor_spec => flat_map (fun t => map (fun n => (CTransition, t, fst ffs, n))
        (transition_parameters (latent_of md ++ observed_of md) (fs_transition (snd ffs))))
        (seq 0 (n_periods (p_dims p) - 1))).
    change (filter (fun lb => String.eqb (lb_name1 lb) f) (flat_map g (md_factors md)) = g (f, fs)).
    assert (forall ffs lb, In lb (g ffs) -> lb_name1 lb = fst ffs) as Hname.
    { intros ffs lb H. unfold g in H. apply in_flat_map in H. destruct H as [t [_ H]].
      apply in_map_iff in H. now destruct H as [n [<- _]]. }
    pose proof (proj1 Hwf) as Hnd0. clear Hff.
    assert (forall l, In (f, fs) l -> NoDup (map fst l) ->
      filter (fun lb => String.eqb (lb_name1 lb) f) (flat_map g l) = g (f, fs)) as H;
      [|now apply H].
    clear Hin Hnd0. clearbody g. induction l as [|ffs l IH]; intros Hin Hnd; [destruct Hin|].
    simpl. rewrite filter_app. simpl in Hnd. inversion_clear Hnd as [|? ? Hni Hnd'].
    destruct Hin as [->|Hin].
    - rewrite (filter_all _ (g (f, fs))).
      2:{ intros lb H. apply Hname in H. apply String.eqb_eq. exact H. }
      rewrite filter_none, app_nil_r; [reflexivity|].
      intros lb H. apply in_flat_map in H. destruct H as [ffs [Hffs H]].
      apply Hname in H. apply String.eqb_neq. rewrite H. intros E. apply Hni.
      simpl. rewrite <- E. apply in_map. exact Hffs.
    - rewrite (filter_none _ (g ffs)); [simpl; now apply IH|].
      intros lb H. apply Hname in H. apply String.eqb_neq. rewrite H. intros E. apply Hni.
      rewrite E. now apply (in_map fst) in Hin.
  Qed.

  Lemma parsed_transition :
    2 <= n_periods (p_dims p) ->
    get_transition_params zero vec info (p_labels p)
    = Ok (map (fun ffs => (fst ffs,
            map (fun t => map (fun n => val (CTransition, t, fst ffs, n))
                   (transition_parameters (latent_of md ++ observed_of md)
                      (fs_transition (snd ffs))))
                (seq 0 (n_periods (p_dims p) - 1)))) (md_factors md)).
  Proof.
    intros Hn. unfold get_transition_params.
    destruct (p_labels_eq md p Hp) as [El [_ [_ [Ep _]]]].
    unfold info, create_parsing_info. simpl pi_transition. rewrite Ep, El.
    unfold range at 1. rewrite seq_length. unfold latent_of at 2. rewrite mapM_map.
    apply mapM_all_ok. intros [f fs] Hin. simpl fst. simpl snd.
    unfold dget_err.
    assert (forall V (h : string -> V) l, In f l -> dget (map (fun g => (g, h g)) l) f = Some (h f)) as Hd.
    { intros V h l. induction l as [|g l IH]; simpl; [tauto|].
      destruct (String.eqb_spec f g) as [->|Hne]; [reflexivity|].
      intros [->|H]; [congruence|auto]. }
    rewrite Hd by (unfold latent_of; now apply (in_map fst) in Hin). simpl. unfold vec.
    rewrite gather_positions, (filter_transition_labels f fs Hin), map_flat_map.
    rewrite (flat_map_ext_in _ (fun t => map (fun n => val (CTransition, t, f, n))
                   (transition_parameters (latent_of md ++ observed_of md) (fs_transition fs))))
      by (intros; apply map_map).
    rewrite (reshape_rows_flat_map _ (length (transition_parameters (latent_of md ++ observed_of md)
        (fs_transition fs)))); [reflexivity|now rewrite seq_length|lia|intros; apply map_length].
  Qed.
End Parsed.
