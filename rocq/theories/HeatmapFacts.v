(** Facts about the model of the correlation heatmap. *)
Require Import Reals String Arith ZArith Bool List Lia Lra.
From Verif Require Import PyBase ModelSpec ProcessModel CheckModel SpecModel SpecParse ParamsIndex
  ParamsVec ProcessData SpecData SpecTransition ListFacts Heatmap SpecHeatmap.
Import ListNotations.
Open Scope string_scope.
Open Scope list_scope.
Open Scope nat_scope.

(** ** Sums *)

Lemma hsum_map {A} (f : A -> R) l : rsum_list (map f l) = sum_of l f.
Proof. induction l as [|x l IH]; simpl; [reflexivity|]. now rewrite IH. Qed.

Lemma hsum_id l : rsum_list l = sum_of l (fun x => x).
Proof. rewrite <- hsum_map. now rewrite map_id. Qed.

Lemma sum_of_map {A B} (g : A -> B) (f : B -> R) l : sum_of (map g l) f = sum_of l (fun x => f (g x)).
Proof. induction l as [|x l IH]; simpl; [reflexivity|]. now rewrite IH. Qed.

Lemma sum_of_ext_in {A} (f g : A -> R) l :
  (forall x, In x l -> f x = g x) -> sum_of l f = sum_of l g.
Proof.
  induction l as [|x l IH]; intros H; simpl; [reflexivity|].
  rewrite (H x) by now left. rewrite IH; [reflexivity|]. intros y Hy. apply H. now right.
Qed.

Lemma sum_of_plus {A} (f g : A -> R) l :
  sum_of l (fun x => f x + g x)%R = (sum_of l f + sum_of l g)%R.
Proof. induction l as [|x l IH]; simpl; [lra|]. rewrite IH. lra. Qed.

Lemma sum_of_scal {A} c (f : A -> R) l : sum_of l (fun x => c * f x)%R = (c * sum_of l f)%R.
Proof. induction l as [|x l IH]; simpl; [lra|]. rewrite IH. lra. Qed.

Lemma sum_of_const {A} c (l : list A) : sum_of l (fun _ => c) = (INR (length l) * c)%R.
Proof.
  induction l as [|x l IH]; [simpl; lra|]. cbn [sum_of length]. rewrite IH, S_INR. lra.
Qed.

Lemma sum_of_nonneg {A} (f : A -> R) l : (forall x, In x l -> 0 <= f x)%R -> (0 <= sum_of l f)%R.
Proof.
  induction l as [|x l IH]; intros H; simpl; [lra|].
  assert (0 <= f x)%R by (apply H; now left).
  assert (0 <= sum_of l f)%R by (apply IH; intros y Hy; apply H; now right). lra.
Qed.

Lemma sum_of_sq_zero {A} (f : A -> R) l :
  sum_of l (fun x => f x * f x)%R = 0%R -> forall x, In x l -> f x = 0%R.
Proof.
  induction l as [|y l IH]; intros H x Hx; [destruct Hx|]. simpl in H.
  assert (0 <= sum_of l (fun x => f x * f x))%R by (apply sum_of_nonneg; intros; nra).
  assert (0 <= f y * f y)%R by nra.
  destruct Hx as [<-|Hx].
  - nra.
  - apply IH; [lra|exact Hx].
Qed.

(** Cauchy-Schwarz *)
Lemma cauchy_schwarz {A} (f g : A -> R) l :
  (sum_of l (fun x => f x * g x) * sum_of l (fun x => f x * g x) <=
   sum_of l (fun x => f x * f x) * sum_of l (fun x => g x * g x))%R.
Proof.
  set (A1 := sum_of l (fun x => f x * f x)%R). set (B := sum_of l (fun x => g x * g x)%R).
  set (C := sum_of l (fun x => f x * g x)%R).
  assert (HA : (0 <= A1)%R) by (apply sum_of_nonneg; intros; nra).
  assert (HB : (0 <= B)%R) by (apply sum_of_nonneg; intros; nra).
  destruct (Req_dec B 0) as [E|E].
  - assert (C = 0)%R.
    { unfold C. rewrite (sum_of_ext_in _ (fun _ => 0%R)).
      - rewrite sum_of_const. lra.
      - intros x Hx. rewrite (sum_of_sq_zero g l E x Hx). lra. }
    rewrite H, E. lra.
  - assert (H : (0 <= sum_of l (fun x => (f x - C / B * g x) * (f x - C / B * g x)))%R)
      by (apply sum_of_nonneg; intros; exact (Rle_0_sqr _)).
    assert (E2 : (sum_of l (fun x => (f x - C / B * g x) * (f x - C / B * g x)) =
                  A1 - C * C / B)%R).
    { rewrite (sum_of_ext_in _ (fun x => f x * f x + (-2 * (C / B) * (f x * g x)
                                         + C / B * (C / B) * (g x * g x)))%R) by (intros; ring).
      rewrite !sum_of_plus, !sum_of_scal. fold A1 B C. field. exact E. }
    rewrite E2 in H. assert (Hp : (0 < B)%R) by lra.
    assert (C * C / B <= A1)%R by lra.
    assert (C * C / B * B = C * C)%R by (field; exact E). nra.
Qed.

(** ** Correlations *)

Lemma combine_fst_snd {A B} (ps : list (A * B)) : combine (map fst ps) (map snd ps) = ps.
Proof. induction ps as [|[a b] ps IH]; simpl; [reflexivity|]. now rewrite IH. Qed.

Lemma average_eq xs : (rsum_list xs / INR (length xs))%R = average xs.
Proof. unfold average. now rewrite hsum_id. Qed.

(** Sum of products of deviations of a list of pairs. *)
Definition codev (ps : list (R * R)) : R :=
  sum_of ps (fun p => (fst p - average (map fst ps)) * (snd p - average (map snd ps)))%R.

Lemma codeviation_eq ps : codeviation (map fst ps) (map snd ps) = codev ps.
Proof. unfold codeviation. now rewrite hsum_map, !average_eq, combine_fst_snd. Qed.

Definition dev2 (xs : list R) : R :=
  sum_of xs (fun x => (x - average xs) * (x - average xs))%R.

Lemma codeviation_self xs : codeviation xs xs = dev2 xs.
Proof.
  unfold codeviation, dev2. rewrite hsum_map, !average_eq.
  generalize (average xs) as m. intros m.
  induction xs as [|x xs IH]; simpl; [reflexivity|]. now rewrite IH.
Qed.

Lemma dev2_nonneg xs : (0 <= dev2 xs)%R.
Proof. apply sum_of_nonneg. intros. exact (Rle_0_sqr _). Qed.

Lemma average_constant xs c : xs <> [] -> (forall x, In x xs -> x = c) -> average xs = c.
Proof.
  intros Hne H. unfold average. rewrite (sum_of_ext_in _ (fun _ => c)) by exact H.
  rewrite sum_of_const. field. apply not_0_INR. destruct xs; [congruence|simpl; lia].
Qed.

Lemma dev2_zero xs : dev2 xs = 0%R <-> constant xs.
Proof.
  split.
  - intros H. exists (average xs). intros x Hx.
    assert ((x - average xs) = 0)%R; [|lra].
    exact (sum_of_sq_zero (fun x => x - average xs)%R xs H x Hx).
  - intros [c Hc]. destruct xs as [|x0 xs]; [reflexivity|].
    unfold dev2. rewrite (average_constant _ c); [|congruence|exact Hc].
    rewrite (sum_of_ext_in _ (fun _ => 0%R)).
    + rewrite sum_of_const. lra.
    + intros x Hx. rewrite (Hc x Hx). lra.
Qed.

Lemma codev_bound ps :
  (codev ps * codev ps <= dev2 (map fst ps) * dev2 (map snd ps))%R.
Proof.
  unfold codev, dev2. rewrite !sum_of_map.
  exact (cauchy_schwarz (fun p => fst p - average (map fst ps))%R
                        (fun p => snd p - average (map snd ps))%R ps).
Qed.

Definition swap {A B} (p : A * B) : B * A := (snd p, fst p).

Lemma codev_swap ps : codev (map swap ps) = codev ps.
Proof.
  unfold codev. rewrite sum_of_map, !map_map. unfold swap. cbn [fst snd]. apply sum_of_ext_in. intros; apply Rmult_comm.
Qed.

(** The cell of [corr] in terms of these sums. *)
Lemma pearson_eq a b :
  let ps := complete_pairs a b in
  pearson a b =
  if Req_EM_T (sqrt (dev2 (map fst ps) * dev2 (map snd ps))) 0 then None
  else Some (codev ps / sqrt (dev2 (map fst ps) * dev2 (map snd ps)))%R.
Proof.
  intros ps. unfold pearson. fold ps. rewrite codeviation_eq, !codeviation_self.
  destruct ps as [|p ps']; [|reflexivity].
  cbn [map]. unfold dev2. cbn [sum_of]. rewrite Rmult_0_l, sqrt_0.
  destruct (Req_EM_T 0 0); [reflexivity|congruence].
Qed.

Lemma sqrt_prod_zero x y : (0 <= x)%R -> (0 <= y)%R -> sqrt (x * y) = 0%R -> x = 0%R \/ y = 0%R.
Proof.
  intros Hx Hy H. apply sqrt_eq_0 in H; [|nra]. now apply Rmult_integral.
Qed.

Lemma pearson_correct a b : is_correlation (complete_pairs a b) (pearson a b).
Proof.
  rewrite pearson_eq. set (ps := complete_pairs a b). cbv zeta.
  assert (Hx := dev2_nonneg (map fst ps)). assert (Hy := dev2_nonneg (map snd ps)).
  destruct (Req_EM_T _ 0) as [E|E].
  - simpl. rewrite <- !dev2_zero. now apply sqrt_prod_zero in E.
  - simpl. rewrite <- !dev2_zero.
    assert (Hx0 : dev2 (map fst ps) <> 0%R).
    { intros H. apply E. rewrite H, Rmult_0_l. apply sqrt_0. }
    assert (Hy0 : dev2 (map snd ps) <> 0%R).
    { intros H. apply E. rewrite H, Rmult_0_r. apply sqrt_0. }
    split; [exact Hx0|]. split; [exact Hy0|].
    assert (Hn : (0 < INR (length ps))%R).
    { apply lt_0_INR. destruct ps; [|simpl; lia]. exfalso. apply Hx0. reflexivity. }
    assert (Hvar : forall xs, variance xs = (dev2 xs / INR (length xs))%R).
    { intros xs. unfold variance, covariance, average at 1, dev2.
      rewrite sum_of_map, sum_of_map, !map_map, !map_length. cbn [fst snd]. now rewrite !map_id. }
    rewrite !Hvar, !map_length.
    assert (Hcov : covariance ps = (codev ps / INR (length ps))%R).
    { unfold covariance, average at 1, codev. now rewrite sum_of_map, map_length. }
    rewrite Hcov, sqrt_div_alt by exact Hn. rewrite sqrt_div_alt by exact Hn.
    rewrite sqrt_mult by assumption.
    rewrite <- (sqrt_sqrt (INR (length ps))) at 1 by lra.
    assert (0 < sqrt (INR (length ps)))%R by now apply sqrt_lt_R0.
    assert (0 < sqrt (dev2 (map fst ps)))%R by (apply sqrt_lt_R0; lra).
    assert (0 < sqrt (dev2 (map snd ps)))%R by (apply sqrt_lt_R0; lra).
    field. repeat split; lra.
Qed.

Lemma complete_pairs_swap a b : complete_pairs b a = map swap (complete_pairs a b).
Proof.
  revert b. induction a as [|[x|] a IH]; intros [|[y|] b]; simpl; try reflexivity; rewrite ?IH; reflexivity.
Qed.

Lemma pearson_sym a b : pearson a b = pearson b a.
Proof.
  rewrite !pearson_eq. rewrite (complete_pairs_swap a b). set (ps := complete_pairs a b). cbv zeta.
  rewrite codev_swap, !map_map. unfold swap. cbn [fst snd].
  rewrite (Rmult_comm (dev2 (map (fun x : R * R => snd x) ps))). reflexivity.
Qed.

Lemma scaled_bound r s : (0 < s)%R -> (r * s * (r * s) <= s * s)%R -> (-1 <= r <= 1)%R.
Proof.
  intros Hs H. assert (r * r <= 1)%R.
  { apply Rnot_lt_le. intros Hr. assert (0 < (r * r - 1) * (s * s))%R by (apply Rmult_lt_0_compat; nra). nra. }
  split; nra.
Qed.

Lemma pearson_bound a b r : pearson a b = Some r -> (-1 <= r <= 1)%R.
Proof.
  rewrite pearson_eq. set (ps := complete_pairs a b). cbv zeta.
  destruct (Req_EM_T _ 0) as [E|E]; [discriminate|]. intros [= <-].
  assert (Hx := dev2_nonneg (map fst ps)). assert (Hy := dev2_nonneg (map snd ps)).
  assert (Hb := codev_bound ps).
  set (d := (dev2 (map fst ps) * dev2 (map snd ps))%R) in *.
  assert (Hd : (0 <= d)%R) by (unfold d; nra).
  assert (Hs : (0 < sqrt d)%R) by (assert (0 <= sqrt d)%R by apply sqrt_pos; lra).
  assert (Hsq := sqrt_sqrt d Hd).
  assert (codev ps = codev ps / sqrt d * sqrt d)%R by (field; lra).
  set (r := (codev ps / sqrt d)%R) in *. apply (scaled_bound _ _ Hs).
  rewrite <- H, Hsq. exact Hb.
Qed.

Lemma complete_pairs_self a : complete_pairs a a = map (fun x => (x, x)) (dropna a).
Proof. induction a as [|[x|] a IH]; simpl; [reflexivity| |exact IH]. now rewrite IH. Qed.

Lemma pearson_self a r : pearson a a = Some r -> r = 1%R.
Proof.
  rewrite pearson_eq. cbv zeta. rewrite complete_pairs_self, !map_map. simpl. rewrite !map_id.
  set (xs := dropna a). assert (Hc : codev (map (fun x => (x, x)) xs) = dev2 xs).
  { unfold codev, dev2. rewrite sum_of_map, !map_map. simpl. now rewrite !map_id. }
  rewrite Hc. rewrite sqrt_square by apply dev2_nonneg.
  destruct (Req_EM_T _ 0) as [E|E]; [discriminate|]. intros [= <-]. now field.
Qed.

Lemma complete_pairs_map ids (f g : variable) :
  complete_pairs (map f ids) (map g ids) = both_known ids f g.
Proof.
  unfold both_known. induction ids as [|i ids IH]; simpl; [reflexivity|].
  rewrite IH. destruct (f i), (g i); reflexivity.
Qed.

(** A table with one row per individual. *)
Definition tabulate (ids : list Z) (names : list string) (vars : list variable) : columns :=
  combine names (map (fun f => map f ids) vars).

Lemma nth_tabulate ids names vars k (h : variable) :
  length names = length vars -> nth_error vars k = Some h ->
  exists nm, nth_error (tabulate ids names vars) k = Some (nm, map h ids).
Proof.
  unfold tabulate. revert names k. induction vars as [|f vars IH]; intros [|x names] k Hl Hk; try discriminate.
  - destruct k; discriminate.
  - destruct k as [|k]; simpl in *.
    + injection Hk as ->. now exists x.
    + apply IH; [now injection Hl|exact Hk].
Qed.

Lemma corr_correlates ids names vars :
  length names = length vars -> correlates ids names vars (corr (tabulate ids names vars)).
Proof.
  intros Hl. unfold correlates, corr, tabulate. simpl.
  assert (Hl2 : length names = length (map (fun f : variable => map f ids) vars)) by now rewrite map_length.
  assert (Hf : map fst (combine names (map (fun f => map f ids) vars)) = names).
  { now apply NoDup_map_fst_combine. }
  rewrite Hf. split; [reflexivity|]. split; [reflexivity|]. split; [exact Hl|].
  rewrite !map_length, combine_length, map_length, Hl, Nat.min_id. split; [reflexivity|]. split.
  - intros row Hr. apply in_map_iff in Hr as (x & <- & _).
    now rewrite map_length, combine_length, map_length, Hl, Nat.min_id.
  - intros i j f g Hi Hj. exists (pearson (map f ids) (map g ids)). split.
    + destruct (nth_tabulate ids names vars i f Hl Hi) as [a Ha].
      destruct (nth_tabulate ids names vars j g Hl Hj) as [b Hb]. unfold tabulate in Ha, Hb.
      eexists. split.
      * rewrite nth_error_map, Ha. reflexivity.
      * rewrite nth_error_map, Hb. reflexivity.
    + rewrite <- complete_pairs_map. apply pearson_correct.
Qed.
