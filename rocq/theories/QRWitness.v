(** A QR decomposition exists: the Gram-Schmidt process, completed with unit
    vectors where the matrix is rank deficient. This shows that the hypotheses about
    [qr] in the theorems about the Kalman filter can be met. *)
Require Import Reals Lra Lia Psatz Arith Bool FunctionalExtensionality List.
From Verif Require Import RSum Kalman SpecKalman.
Import ListNotations.
Open Scope R_scope.

Section GS.
  Variable m : nat.

  Definition zero : vec := fun _ => 0.
  Definition unit_vec (j : nat) : vec := fun i => if Nat.eq_dec i j then 1 else 0.
  Definition proj (qs : list vec) (v : vec) : vec :=
    fun i => rsum (length qs) (fun j => dot m (nth j qs zero) v * nth j qs zero i).
  Definition resid (qs : list vec) (v : vec) : vec := fun i => v i - proj qs v i.
  Definition normalize (v : vec) : vec := fun i => v i / sqrt (dot m v v).

  Fixpoint find_unit (qs : list vec) (k : nat) : nat :=
    match k with
    | O => O
    | S k' => if Req_EM_T (dot m (resid qs (unit_vec k')) (resid qs (unit_vec k'))) 0
              then find_unit qs k' else k'
    end.

  Definition next (qs : list vec) (v : vec) : vec :=
    if Req_EM_T (dot m (resid qs v) (resid qs v)) 0
    then normalize (resid qs (unit_vec (find_unit qs m)))
    else normalize (resid qs v).

  Fixpoint gs (a : mat) (k : nat) : list vec :=
    match k with
    | O => []
    | S k' => gs a k' ++ [next (gs a k') (fun i => a i k')]
    end.

  Lemma dot_sym x y : dot m x y = dot m y x.
  Proof. apply rsum_ext. intros; ring. Qed.
  Lemma dot_ext x y v w : veq m x y -> veq m v w -> dot m x v = dot m y w.
  Proof. intros H H'. apply rsum_ext. intros i Hi. now rewrite H, H'. Qed.
  Lemma dot_sub_r x y z : dot m x (fun i => y i - z i) = dot m x y - dot m x z.
  Proof. unfold dot. rewrite <- rsum_minus. apply rsum_ext. intros; ring. Qed.
  Lemma dot_div_l x y c : dot m (fun i => x i / c) y = dot m x y / c.
  Proof. unfold dot, Rdiv. rewrite <- rsum_scal_r. apply rsum_ext. intros; ring. Qed.
  Lemma dot_div_r x y c : dot m x (fun i => y i / c) = dot m x y / c.
  Proof. rewrite dot_sym, dot_div_l. now rewrite dot_sym. Qed.
  Lemma dot_nonneg x : 0 <= dot m x x.
  Proof. apply rsum_nonneg. intros. nra. Qed.
  Lemma dot_sum_r x k (c : nat -> R) (y : nat -> vec) :
    dot m x (fun i => rsum k (fun j => c j * y j i)) = rsum k (fun j => c j * dot m x (y j)).
  Proof.
    unfold dot.
    transitivity (rsum m (fun i => rsum k (fun j => c j * (x i * y j i)))).
    { apply rsum_ext. intros i Hi. rewrite <- rsum_scal_l. apply rsum_ext. intros; ring. }
    rewrite rsum_swap. apply rsum_ext. intros j Hj. now rewrite rsum_scal_l.
  Qed.

  Definition orthonormal (qs : list vec) : Prop :=
    forall j k, (j < length qs)%nat -> (k < length qs)%nat ->
      dot m (nth j qs zero) (nth k qs zero) = if Nat.eq_dec j k then 1 else 0.

  Lemma proj_dot qs v j : orthonormal qs -> (j < length qs)%nat ->
    dot m (nth j qs zero) (proj qs v) = dot m (nth j qs zero) v.
  Proof.
    intros H Hj. unfold proj. rewrite dot_sum_r.
    rewrite (rsum_single _ j); [|assumption|].
    - rewrite H by assumption. destruct (Nat.eq_dec j j); [ring|congruence].
    - intros k Hk Hne. rewrite H by assumption. destruct (Nat.eq_dec j k); [congruence|ring].
  Qed.

  Lemma resid_orth qs v j : orthonormal qs -> (j < length qs)%nat ->
    dot m (nth j qs zero) (resid qs v) = 0.
  Proof. intros H Hj. unfold resid. rewrite dot_sub_r, proj_dot by assumption. ring. Qed.

  Lemma resid_proj qs v w : orthonormal qs -> dot m (resid qs v) (proj qs w) = 0.
  Proof.
    intros H. unfold proj. rewrite dot_sum_r. apply rsum_zero. intros j Hj.
    rewrite (dot_sym (resid qs v)), resid_orth by assumption. ring.
  Qed.

  Lemma resid_self qs v : orthonormal qs -> dot m (resid qs v) (resid qs v) = dot m (resid qs v) v.
  Proof.
    intros H. unfold resid at 2. rewrite dot_sub_r.
    rewrite (resid_proj qs v v H). ring.
  Qed.

  Lemma resid_norm qs v : orthonormal qs ->
    dot m (resid qs v) (resid qs v)
    = dot m v v - rsum (length qs) (fun j => dot m (nth j qs zero) v * dot m (nth j qs zero) v).
  Proof.
    intros H. rewrite resid_self, dot_sym by assumption. unfold resid. rewrite dot_sub_r. f_equal.
    unfold proj. rewrite dot_sum_r. apply rsum_ext. intros j Hj. now rewrite (dot_sym v).
  Qed.

  Lemma dot_unit x j : (j < m)%nat -> dot m x (unit_vec j) = x j.
  Proof.
    intros Hj. unfold dot, unit_vec. rewrite (rsum_single m j); [|assumption|].
    - destruct (Nat.eq_dec j j); [ring|congruence].
    - intros i Hi Hne. destruct (Nat.eq_dec i j); [congruence|ring].
  Qed.

  Lemma resid_unit_sum qs : orthonormal qs ->
    rsum m (fun j => dot m (resid qs (unit_vec j)) (resid qs (unit_vec j)))
    = INR m - INR (length qs).
  Proof.
    intros H.
    rewrite (rsum_ext m _ (fun i => 1 - rsum (length qs)
               (fun j => nth j qs zero i * nth j qs zero i))).
    - rewrite rsum_minus, rsum_const, rsum_swap.
      rewrite (rsum_ext (length qs) _ (fun _ => 1)); [rewrite rsum_const; ring|].
      intros j Hj. change (dot m (nth j qs zero) (nth j qs zero) = 1). rewrite H by assumption.
      destruct (Nat.eq_dec j j); [reflexivity|congruence].
    - intros i Hi. rewrite resid_norm by assumption. f_equal.
      + rewrite dot_unit by assumption. unfold unit_vec. destruct (Nat.eq_dec i i); [reflexivity|congruence].
      + apply rsum_ext. intros j Hj. now rewrite dot_unit.
  Qed.

  Lemma find_unit_ok qs k :
    dot m (resid qs (unit_vec (find_unit qs k))) (resid qs (unit_vec (find_unit qs k))) <> 0 \/
    forall j, (j < k)%nat -> dot m (resid qs (unit_vec j)) (resid qs (unit_vec j)) = 0.
  Proof.
    induction k as [|k IH]; [right; lia|]. cbn [find_unit].
    destruct (Req_EM_T (dot m (resid qs (unit_vec k)) (resid qs (unit_vec k))) 0) as [E|E].
    - destruct IH as [IH|IH]; [now left|]. right. intros j Hj.
      destruct (Nat.eq_dec j k) as [->|]; [assumption|apply IH; lia].
    - now left.
  Qed.

  Lemma find_unit_nz qs : orthonormal qs -> (length qs < m)%nat ->
    dot m (resid qs (unit_vec (find_unit qs m))) (resid qs (unit_vec (find_unit qs m))) <> 0.
  Proof.
    intros H Hl. destruct (find_unit_ok qs m) as [E|E]; [assumption|]. exfalso.
    assert (S := resid_unit_sum qs H). rewrite (rsum_zero _ _ E) in S.
    apply lt_INR in Hl. lra.
  Qed.

  Lemma normalize_dot v : dot m v v <> 0 -> dot m (normalize v) (normalize v) = 1.
  Proof.
    intros H. unfold normalize. rewrite dot_div_l, dot_div_r.
    assert (0 <= dot m v v) by apply dot_nonneg. assert (0 < dot m v v) by lra.
    assert (Q := sqrt_sqrt _ (dot_nonneg v)). assert (0 < sqrt (dot m v v)) by now apply sqrt_lt_R0.
    rewrite <- Q at 1. field. lra.
  Qed.

  Lemma next_orth qs v j : orthonormal qs -> (j < length qs)%nat ->
    dot m (nth j qs zero) (next qs v) = 0.
  Proof.
    intros H Hj. unfold next. destruct (Req_EM_T _ _) as [E|E]; unfold normalize;
      rewrite dot_div_r, resid_orth by assumption; unfold Rdiv; ring.
  Qed.

  Lemma next_norm qs v : orthonormal qs -> (length qs < m)%nat -> dot m (next qs v) (next qs v) = 1.
  Proof.
    intros H Hl. unfold next. destruct (Req_EM_T _ _) as [E|E]; apply normalize_dot; [|assumption].
    now apply find_unit_nz.
  Qed.

  Lemma next_span qs v i : orthonormal qs -> (i < m)%nat ->
    v i = proj qs v i + dot m (next qs v) v * next qs v i.
  Proof.
    intros H Hi. unfold next. destruct (Req_EM_T _ _) as [E|E].
    - assert (Z : forall k, (k < m)%nat -> resid qs v k = 0) by now apply rsum_sq_zero.
      set (q := normalize _).
      replace (dot m q v) with 0.
      + specialize (Z i Hi). unfold resid in Z. lra.
      + symmetry. rewrite (dot_ext q q v (proj qs v)).
        * unfold q, normalize. rewrite dot_div_l, resid_proj by assumption. unfold Rdiv; ring.
        * intros ? ?; reflexivity.
        * intros k Hk. specialize (Z k Hk). unfold resid in Z. lra.
    - unfold normalize. rewrite dot_div_l, <- resid_self by assumption.
      set (d := dot m (resid qs v) (resid qs v)) in *.
      assert (0 < d) by (assert (0 <= d) by apply dot_nonneg; lra).
      assert (Q : sqrt d * sqrt d = d) by (apply sqrt_sqrt; lra).
      assert (0 < sqrt d) by now apply sqrt_lt_R0.
      replace (d / sqrt d * (resid qs v i / sqrt d)) with (resid qs v i).
      + unfold resid. ring.
      + rewrite <- Q at 1. field. lra.
  Qed.

  Lemma gs_length a k : length (gs a k) = k.
  Proof. induction k as [|k IH]; [reflexivity|]. cbn [gs]. rewrite app_length, IH. simpl. lia. Qed.

  Lemma gs_orthonormal a k : (k <= m)%nat -> orthonormal (gs a k).
  Proof.
    induction k as [|k IH]; intros Hk; [intros i j Hi; simpl in Hi; lia|].
    assert (H := IH ltac:(lia)). assert (L := gs_length a k).
    intros i j Hi Hj. rewrite gs_length in Hi, Hj. cbn [gs].
    set (qs := gs a k) in *. set (v := fun i => a i k).
    destruct (Nat.eq_dec i k) as [->|Ni]; destruct (Nat.eq_dec j k) as [->|Nj].
    - rewrite app_nth2 by lia. rewrite L, Nat.sub_diag. cbn [nth]. rewrite next_norm by (assumption || lia).
      destruct (Nat.eq_dec k k); [reflexivity|congruence].
    - rewrite app_nth2 by lia. rewrite (app_nth1 _ _ _ (n := j)) by lia. rewrite L, Nat.sub_diag. cbn [nth].
      rewrite dot_sym, next_orth by (assumption || lia).
      destruct (Nat.eq_dec k j); [congruence|reflexivity].
    - rewrite (app_nth2 _ _ _ (n := k)) by lia. rewrite app_nth1 by lia. rewrite L, Nat.sub_diag. cbn [nth].
      rewrite next_orth by (assumption || lia).
      destruct (Nat.eq_dec i k); [congruence|reflexivity].
    - rewrite !app_nth1 by lia. apply H; lia.
  Qed.

  Lemma gs_prefix a k n j : (k <= n)%nat -> (j < k)%nat -> nth j (gs a n) zero = nth j (gs a k) zero.
  Proof.
    intros Hk Hj. induction Hk as [|n Hk IH]; [reflexivity|].
    cbn [gs]. rewrite app_nth1 by (rewrite gs_length; lia). exact IH.
  Qed.

  Definition gs_r (n : nat) (a : mat) : mat :=
    fun k j => if (k <=? j)%nat then dot m (nth k (gs a n) zero) (fun i => a i j) else 0.

  Lemma gs_is_qr n a : (n <= m)%nat -> is_qr m n a (gs_r n a).
  Proof.
    intros Hn. split.
    - intros k j Hk Hj Hlt. unfold gs_r. now rewrite (proj2 (Nat.leb_gt k j)).
    - exists (fun i k => nth k (gs a n) zero i). split.
      + intros j k Hj Hk. apply (gs_orthonormal a n Hn); rewrite gs_length; assumption.
      + intros i j Hi Hj.
        transitivity (rsum (S j) (fun k => nth k (gs a n) zero i * gs_r n a k j)).
        * assert (O := gs_orthonormal a j ltac:(lia)).
          rewrite (next_span (gs a j) (fun i => a i j) i O Hi). cbn [rsum].
          assert (E : nth j (gs a n) zero = next (gs a j) (fun i => a i j)).
          { rewrite (gs_prefix a (S j) n j) by lia. cbn [gs].
            rewrite app_nth2 by (rewrite gs_length; lia). now rewrite gs_length, Nat.sub_diag. }
          f_equal.
          -- unfold proj. rewrite gs_length. apply rsum_ext. intros k Hk. unfold gs_r.
             rewrite (proj2 (Nat.leb_le k j)) by lia. rewrite (gs_prefix a j n k) by lia. ring.
          -- unfold gs_r. rewrite Nat.leb_refl, E. ring.
        * symmetry. apply rsum_trunc; [lia|]. intros k Hk _. unfold gs_r.
          rewrite (proj2 (Nat.leb_gt k j)) by lia. ring.
  Qed.
End GS.

Definition truncate (m n : nat) (a : mat) : mat :=
  fun i j => if ((i <? m) && (j <? n))%nat then a i j else 0.

Definition gram_schmidt : qr_function := fun m n a => gs_r m n (truncate m n a).

Theorem gram_schmidt_correct : correct_qr gram_schmidt.
Proof.
  intros m n a H. destruct (gs_is_qr m n (truncate m n a) H) as (T & q & Hq & Ha).
  split; [exact T|]. exists q. split; [exact Hq|]. intros i j Hi Hj. unfold gram_schmidt. rewrite <- Ha by assumption.
  unfold truncate. now rewrite (proj2 (Nat.ltb_lt i m) Hi), (proj2 (Nat.ltb_lt j n) Hj).
Qed.

Theorem gram_schmidt_local : local_qr gram_schmidt.
Proof.
  intros m n a b H i j _ _. unfold gram_schmidt. f_equal.
  replace (truncate m n b) with (truncate m n a); [reflexivity|].
  extensionality k. extensionality l. unfold truncate.
  destruct (k <? m)%nat eqn:Ek, (l <? n)%nat eqn:El; try reflexivity.
  apply H; apply Nat.ltb_lt; assumption.
Qed.
