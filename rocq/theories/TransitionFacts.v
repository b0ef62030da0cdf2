(** Lemmas about the transition functions. *)
Require Import Reals String Arith Bool List Lia Lra.
From Verif Require Import PyBase ListFacts ModelSpec ProcessModel SpecModel SpecIndex IndexFacts RSum Kalman
  KalmanFacts TransitionFunctions SpecTransition.
Import ListNotations.
Open Scope R_scope.

Lemma sum_of_ext {A} (l : list A) f g : (forall x, In x l -> f x = g x) -> sum_of l f = sum_of l g.
Proof.
  induction l as [|x l IH]; intros H; [reflexivity|]. simpl.
  rewrite (H x) by now left. f_equal. apply IH. intros y Hy. apply H. now right.
Qed.

Lemma sum_of_app {A} (l l' : list A) f : sum_of (l ++ l') f = sum_of l f + sum_of l' f.
Proof. induction l as [|x l IH]; simpl; [ring|]. rewrite IH. ring. Qed.

Lemma sum_of_map {A B} (g : A -> B) (l : list A) f : sum_of (map g l) f = sum_of l (fun x => f (g x)).
Proof. induction l as [|x l IH]; simpl; [reflexivity|]. now rewrite IH. Qed.

Lemma sum_of_zero {A} (l : list A) f : (forall x, In x l -> f x = 0) -> sum_of l f = 0.
Proof.
  induction l as [|x l IH]; intros H; [reflexivity|]. simpl.
  rewrite (H x) by now left. rewrite IH; [ring|]. intros y Hy. apply H. now right.
Qed.

Lemma sum_of_scal {A} (l : list A) c f : sum_of l (fun x => c * f x) = c * sum_of l f.
Proof. induction l as [|x l IH]; simpl; [ring|]. rewrite IH. ring. Qed.

Lemma sum_of_le {A} (l : list A) f g : (forall x, In x l -> f x <= g x) -> sum_of l f <= sum_of l g.
Proof.
  induction l as [|x l IH]; intros H; simpl; [lra|]. specialize (IH (fun y Hy => H y (or_intror Hy))).
  specialize (H x (or_introl eq_refl)). lra.
Qed.

Lemma sum_of_pos {A} (l : list A) f :
  (forall x, In x l -> 0 <= f x) -> (exists x, In x l /\ 0 < f x) -> 0 < sum_of l f.
Proof.
  induction l as [|x l IH]; intros H (y & Hy & Hp); [destruct Hy|]. simpl.
  assert (Hl : 0 <= sum_of l f).
  { rewrite <- (sum_of_zero l (fun _ => 0)) by reflexivity. apply sum_of_le. intros z Hz. apply H. now right. }
  destruct Hy as [->|Hy]; [lra|].
  specialize (H x (or_introl eq_refl)) as Hx.
  assert (0 < sum_of l f); [|lra]. apply IH; [intros z Hz; apply H; now right|eauto].
Qed.

Lemma dot_err_map {A} (a b : A -> R) (l : list A) :
  dot_err (map a l) (map b l) = Ok (sum_of l (fun x => a x * b x)).
Proof. induction l as [|x l IH]; simpl; [reflexivity|]. rewrite IH. reflexivity. Qed.

Lemma last_err_app l x : last_err (l ++ [x]) = Ok x.
Proof.
  unfold last_err. destruct l as [|y l]; [reflexivity|]. simpl. f_equal. apply last_last.
Qed.

Lemma firstn_map_app {A} (l : list A) (l' : list A) n : n = length l -> firstn n (l ++ l') = l.
Proof. intros ->. rewrite firstn_app, Nat.sub_diag, firstn_all. simpl. apply app_nil_r. Qed.

Lemma skipn_map_app {A} (l : list A) (l' : list A) n : n = length l -> skipn n (l ++ l') = l'.
Proof. intros ->. rewrite skipn_app, Nat.sub_diag, skipn_all. reflexivity. Qed.

Lemma range_pairs_map {A} (l : list A) (d : A) :
  map (fun ab => (nth (fst ab) l d, nth (snd ab) l d)) (combinations2 (range (length l))) = combinations2 l.
Proof.
  assert (G : forall l0 l1, l = l0 ++ l1 ->
    map (fun ab => (nth (fst ab) l d, nth (snd ab) l d)) (combinations2 (seq (length l0) (length l1))) = combinations2 l1).
  { intros l0 l1. revert l0. induction l1 as [|x l1 IH]; intros l0 E; [reflexivity|]. cbn [length seq combinations2].
    rewrite map_app. f_equal.
    - rewrite map_map. cbn [fst snd].
      assert (Ex : nth (length l0) l d = x).
      { rewrite E, app_nth2 by lia. now rewrite Nat.sub_diag. }
      rewrite Ex.
      assert (Es : forall m l2 l3, l = l2 ++ l3 -> m = length l2 -> map (fun y => nth y l d) (seq m (length l3)) = l3).
      { clear. intros m l2 l3. revert m l2. induction l3 as [|y l3 IH]; intros m l2 E Em; [reflexivity|].
        cbn [length seq map]. rewrite (IH (S m) (l2 ++ [y])).
        - f_equal. rewrite E, Em, app_nth2 by lia. now rewrite Nat.sub_diag.
        - now rewrite <- app_assoc.
        - rewrite app_length. simpl. lia. }
      rewrite <- (Es (S (length l0)) (l0 ++ [x]) l1) at 2.
      + now rewrite map_map.
      + now rewrite <- app_assoc.
      + rewrite app_length. simpl. lia.
    - specialize (IH (l0 ++ [x])). rewrite app_length in IH. simpl in IH. rewrite Nat.add_1_r in IH.
      apply IH. rewrite <- app_assoc. exact E. }
  unfold range. apply (G [] l). reflexivity.
Qed.

Lemma combinations2_map {A B} (g : A -> B) (l : list A) :
  combinations2 (map g l) = map (fun ab => (g (fst ab), g (snd ab))) (combinations2 l).
Proof. induction l as [|x l IH]; [reflexivity|]. simpl. now rewrite IH, map_app, !map_map. Qed.

(** The loop over the interactions. *)
Lemma interactions_sum (beta state : string -> R) (states : list R) (all : list string) acc :
  states = map state all ->
  fold_left (fun res pab => res + fst pab * nth (fst (snd pab)) states 0 * nth (snd (snd pab)) states 0)
    (combine (map beta (map product_name (combinations2 all))) (combinations2 (range (length states)))) acc
  = acc + sum_of (combinations2 all) (fun ab => beta (product_name ab) * (state (fst ab) * state (snd ab))).
Proof.
  intros Hs.
  assert (Hr : map (fun ab => (nth (fst ab) states 0, nth (snd ab) states 0)) (combinations2 (range (length states)))
               = map (fun ab => (state (fst ab), state (snd ab))) (combinations2 all)).
  { rewrite <- combinations2_map, <- Hs. apply range_pairs_map. }
  generalize dependent (combinations2 (range (length states))). generalize (combinations2 all).
  intros l. revert acc. induction l as [|ab l IH]; intros acc ps Hr; destruct ps as [|q ps]; try discriminate.
  - simpl. ring.
  - cbn [map] in Hr. injection Hr as H1 H2 Hr. cbn [map combine fold_left fst snd sum_of]. rewrite (IH _ _ Hr).
    rewrite H1, H2. ring.
Qed.

Lemma logsumexp_list x l :
  logsumexp (S (length l)) (fun k => nth k (x :: l) 0) = ln (sum_of (x :: l) exp).
Proof.
  rewrite logsumexp_ln by lia. f_equal.
  assert (G : forall l, rsum (length l) (fun i => exp (nth i l 0)) = sum_of l exp).
  { clear. induction l as [|y l IH]; [reflexivity|]. cbn [length]. rewrite rsum_S_l. simpl. now rewrite IH. }
  apply (G (x :: l)).
Qed.

Lemma weighted_formula nan neg_inf (all : list string) (beta power : string -> R) :
  shares all beta ->
  weighted_logsumexp nan neg_inf (map beta all) (map power all)
  = ln (sum_of all (fun f => beta f * exp (power f))).
Proof.
  intros [Hnn Hpos]. unfold weighted_logsumexp.
  assert (E : existsb (fun g => if Rlt_dec g 0 then true else false) (map beta all) = false).
  { destruct (existsb _ _) eqn:E; [|reflexivity]. apply existsb_exists in E as (g & Hg & E).
    apply in_map_iff in Hg as (f & <- & Hf). specialize (Hnn f Hf). destruct (Rlt_dec (beta f) 0); [lra|discriminate]. }
  rewrite E. clear E. unfold logsumexp_ext.
  set (l := map _ (combine (map beta all) (map power all))).
  assert (Hsum : sum_of (finite_entries l) exp = sum_of all (fun f => beta f * exp (power f))).
  { subst l. clear Hpos. induction all as [|f all IH]; [reflexivity|]. cbn [map combine].
    cbn [finite_entries flat_map]. change (flat_map _ ?x) with (finite_entries x). rewrite sum_of_app.
    rewrite IH by (intros g Hg; apply Hnn; now right). cbn [sum_of fst snd]. f_equal.
    specialize (Hnn f (or_introl eq_refl)). unfold log_ext. destruct (Req_EM_T (beta f) 0) as [->|Hne]; cbn [option_map].
    - simpl. ring.
    - destruct (Rlt_dec (beta f) 0); [lra|]. simpl. rewrite exp_plus, exp_ln by lra. ring. }
  destruct (finite_entries l) as [|x l'] eqn:E.
  - exfalso. assert (0 < sum_of all (fun f => beta f * exp (power f))).
    { apply sum_of_pos.
      - intros f Hf. apply Rmult_le_pos; [now apply Hnn|left; apply exp_pos].
      - destruct Hpos as (f & Hf & Hp). exists f. split; [assumption|]. apply Rmult_lt_0_compat; [assumption|apply exp_pos]. }
    rewrite <- Hsum in H. simpl in H. lra.
  - rewrite logsumexp_list. now rewrite Hsum.
Qed.

Lemma removelast_last_app {A} (l : list A) x : removelast (l ++ [x]) = l.
Proof. apply removelast_last. Qed.

Lemma clip_clipped x : clip x = clipped x.
Proof.
  unfold clip, clipped, clip_bound. assert (0 < IZR (10 ^ 12)) by (apply IZR_lt; reflexivity).
  set (b := IZR (10 ^ 12)) in *. clearbody b.
  unfold Rmin, Rmax. destruct (Rle_dec x (- b)); destruct (Rle_dec _ b); destruct (Rlt_dec x (- b)); destruct (Rlt_dec b x); lra.
Qed.

Section Evaluation.
  Variables nan neg_inf : R.
  Variables (all : list string) (beta state : string -> R).
  Let states := map state all.

  Lemma eval_linear : tf_linear states (map beta (all ++ ["constant"%string])) = Ok (linear_formula all beta state).
  Proof.
    unfold tf_linear. rewrite map_app. cbn [map]. rewrite last_err_app. cbn [rbind]. rewrite removelast_last_app.
    unfold states. rewrite dot_err_map. cbn [rbind]. f_equal. unfold linear_formula, linear_part. f_equal.
    apply sum_of_ext. intros f _. ring.
  Qed.

  Lemma eval_squares :
    tf_linear_and_squares states (map beta (all ++ map (fun f => f ++ " ** 2")%string all ++ ["constant"%string]))
    = Ok (squares_formula all beta state).
  Proof.
    unfold tf_linear_and_squares. rewrite !map_app. cbn [map].
    rewrite app_assoc, last_err_app, <- app_assoc. cbn [rbind].
    rewrite (firstn_map_app (map beta all)) by (unfold states; now rewrite !map_length).
    rewrite (skipn_map_app (map beta all)) by (unfold states; now rewrite !map_length).
    rewrite firstn_map_app by (unfold states; now rewrite !map_length).
    unfold states. rewrite dot_err_map. cbn [rbind]. rewrite !map_map, dot_err_map. cbn [rbind]. f_equal.
    unfold squares_formula, linear_part, square_part. f_equal. f_equal; apply sum_of_ext; intros f _; ring.
  Qed.

  Lemma eval_translog :
    tf_translog states (map beta (params_translog all)) = Ok (translog_formula all beta state).
  Proof.
    unfold tf_translog, params_translog. rewrite !map_app. cbn [map].
    rewrite !app_assoc, last_err_app, <- !app_assoc. cbn [rbind].
    rewrite (firstn_map_app (map beta all)) by (unfold states; now rewrite !map_length).
    rewrite (skipn_map_app (map beta all)) by (unfold states; now rewrite !map_length).
    rewrite firstn_map_app by (unfold states; now rewrite !map_length).
    assert (E2 : skipn (2 * length states) (map beta all ++ map beta (map square_name all) ++ map beta (map product_name (combinations2 all)) ++ [beta "constant"%string])
            = map beta (map product_name (combinations2 all)) ++ [beta "constant"%string]).
    { rewrite app_assoc. apply skipn_map_app. rewrite app_length, !map_length. unfold states. rewrite map_length. lia. }
    rewrite E2, removelast_last_app. unfold states at 1. rewrite dot_err_map. cbn [rbind].
    unfold states at 1. rewrite (map_map state), (map_map square_name), dot_err_map. cbn [rbind].
    rewrite (interactions_sum beta state states all) by reflexivity. f_equal.
    unfold translog_formula, linear_part, square_part, interaction_part. rewrite combinations2_pairs.
    unfold square_name, product_name. f_equal. f_equal. f_equal; apply sum_of_ext; intros f _; ring.
  Qed.

  Lemma eval_log_ces : shares all beta ->
    tf_log_ces nan neg_inf states (map beta (all ++ ["phi"%string])) = Ok (log_ces_formula all beta state).
  Proof.
    intros H. unfold tf_log_ces. rewrite map_app. cbn [map]. rewrite last_err_app. cbn [rbind].
    rewrite removelast_last_app. unfold states. rewrite !map_length, Nat.eqb_refl. f_equal.
    rewrite map_map, weighted_formula by assumption. unfold log_ces_formula, Rdiv. rewrite Rmult_1_l. f_equal. f_equal.
    apply sum_of_ext. intros f _. f_equal. f_equal. ring.
  Qed.

  Lemma zip_err_map {A} (a b : A -> R) (l : list A) :
    zip_err Rmult (map a l) (map b l) = Ok (map (fun x => a x * b x) l).
  Proof. induction l as [|x l IH]; simpl; [reflexivity|]. rewrite IH. reflexivity. Qed.

  Lemma eval_log_ces_general : shares all beta ->
    tf_log_ces_general nan neg_inf states
      (map beta (all ++ map (fun f => "sigma_" ++ f)%string all ++ ["tfp"%string]))
    = Ok (log_ces_general_formula all beta state).
  Proof.
    intros H. unfold tf_log_ces_general. rewrite !map_app. cbn [map].
    rewrite app_assoc, last_err_app, <- app_assoc. cbn [rbind].
    rewrite (firstn_map_app (map beta all)) by (unfold states; now rewrite !map_length).
    rewrite (skipn_map_app (map beta all)) by (unfold states; now rewrite !map_length).
    rewrite firstn_map_app by (unfold states; now rewrite !map_length).
    unfold states. rewrite map_map, zip_err_map. cbn [rbind]. rewrite !map_length, Nat.eqb_refl. f_equal.
    rewrite weighted_formula by assumption. unfold log_ces_general_formula. rewrite Rmult_comm. f_equal. f_equal.
    apply sum_of_ext. intros f _. f_equal. f_equal. ring.
  Qed.
End Evaluation.

Lemma eval_robust (all : list string) (beta state : string -> R) :
  tf_robust_translog (map state all) (map beta (params_translog all))
  = Ok (translog_formula all beta (fun f => clipped (state f))).
Proof.
  unfold tf_robust_translog. rewrite map_map.
  rewrite (map_ext (fun x => clip (state x)) (fun f => clipped (state f))) by (intros; apply clip_clipped).
  apply eval_translog.
Qed.

Lemma eval_documented nan neg_inf all beta state own s t y :
  tf_of_string s = Some t -> documented all beta state own s y ->
  eval_tf nan neg_inf t (state own) (map state all) (map beta (transition_parameters all (TStr s))) = Ok y.
Proof.
  intros Ht Hd. destruct Hd; injection Ht as <-; cbn [eval_tf transition_parameters].
  - apply eval_linear.
  - rewrite <- combinations2_pairs. apply eval_translog.
  - rewrite <- combinations2_pairs. apply eval_robust.
  - apply eval_squares.
  - now apply eval_log_ces.
  - now apply eval_log_ces_general.
  - reflexivity.
Qed.
