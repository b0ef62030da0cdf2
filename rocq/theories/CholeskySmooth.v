(** A Cholesky factor that is a differentiable function of the covariance matrix. *)
From Coquelicot Require Import Coquelicot.
Require Import Reals Lra Lia Psatz Arith Bool String List.
From Verif Require Import PyBase ListFacts RSum Kalman SpecKalman KalmanFacts KalmanOrder KalmanSeq QRSigns Smooth.
Import ListNotations.
Open Scope R_scope.

Definition schur (p : mat) : mat := fun a b => p (S a) (S b) - p O (S a) * p O (S b) / p O O.

Fixpoint chol (n : nat) (p : mat) : mat :=
  match n with
  | O => fun _ _ => 0
  | S n' => fun a b =>
      match a, b with
      | O, _ => p O b / sqrt (p O O)
      | S _, O => 0
      | S a', S b' => chol n' (schur p) a' b'
      end
  end.

Lemma chol_ext n : forall p q, meq n p q -> meq n (chol n p) (chol n q).
Proof.
  induction n as [|n IH]; intros p q E a b Ha Hb; [lia|].
  destruct a as [|a]; cbn [chol].
  - rewrite (E O b), (E O O) by lia. reflexivity.
  - destruct b as [|b]; [reflexivity|]. apply IH; [|lia|lia]. intros c d Hc Hd. unfold schur.
    rewrite (E (S c) (S d)), (E O (S c)), (E O (S d)), (E O O) by lia. reflexivity.
Qed.

Lemma chol_upper n : forall p, upper_triangular n (chol n p).
Proof.
  induction n as [|n IH]; intros p a b Ha Hb Hlt; [lia|]. destruct a as [|a]; [lia|]. destruct b as [|b]; [reflexivity|].
  cbn [chol]. apply IH; lia.
Qed.

Lemma cov_first n u b : upper_triangular (S n) u -> (b < S n)%nat -> cov (S n) u O b = u O O * u O b.
Proof.
  intros T Hb. unfold cov. rewrite rsum_S_l, rsum_zero; [ring|]. intros c Hc. rewrite T by lia. ring.
Qed.

Lemma schur_cov n u : upper_triangular (S n) u -> u O O <> 0 -> meq n (schur (cov (S n) u)) (cov n (sub u)).
Proof.
  intros T N a b Ha Hb. unfold schur. rewrite !cov_first by (assumption || lia). unfold cov. rewrite rsum_S_l.
  unfold sub. field. exact N.
Qed.

(** It differs from any other factor of the same covariance by signs only. *)
Lemma chol_signs n : forall u, upper_triangular n u -> nonsingular n u -> up_to_signs n u (chol n (cov n u)).
Proof.
  induction n as [|n IH]; intros u T N.
  { exists (fun _ => 1). split; intros; lia. }
  pose proof (corner_nonzero n u T N) as C.
  destruct (IH (sub u) (upper_sub n u T) (sub_nonsingular n u T N)) as (d & D & E).
  assert (Q : sqrt (u O O * u O O) = Rabs (u O O)) by (rewrite <- sqrt_Rsqr_abs; reflexivity).
  exists (fun a => match a with O => u O O / Rabs (u O O) | S a => d a end). split.
  - intros [|a] Ha; [|apply D; lia]. unfold Rabs. destruct (Rcase_abs (u O O)); [right|left]; field; lra.
  - intros [|a] b Ha Hb; cbn [chol].
    + rewrite !cov_first by (assumption || lia). rewrite Q. field. now apply Rabs_no_R0.
    + destruct b as [|b]; [rewrite T by lia; ring|].
      rewrite (chol_ext n _ _ (schur_cov n u T C)) by lia. apply (E a b); lia.
Qed.

(** The entries are differentiable where the covariance is that of a nonsingular factor. *)
Lemma chol_smooth n (x : R) : forall (p : R -> mat) u,
  upper_triangular n u -> nonsingular n u -> meq n (p x) (cov n u) ->
  (forall a b, (a < n)%nat -> (b < n)%nat -> smooth (fun y => p y a b) x) ->
  forall a b, (a < n)%nat -> (b < n)%nat -> smooth (fun y => chol n (p y) a b) x.
Proof.
  induction n as [|n IH]; intros p u T N E S a b Ha Hb; [lia|].
  pose proof (corner_nonzero n u T N) as C.
  assert (P : 0 < p x O O).
  { rewrite E, cov_first by (assumption || lia). destruct (Rtotal_order (u O O) 0) as [L|[L|L]]; [nra|contradiction|nra]. }
  destruct a as [|a]; cbn [chol].
  - apply sm_div; [apply S; lia|apply sm_sqrt; [apply S; lia|exact P]|]. apply Rgt_not_eq, sqrt_lt_R0, P.
  - destruct b as [|b]; [apply sm_const|].
    apply (IH (fun y => schur (p y)) (sub u)); [now apply upper_sub|now apply sub_nonsingular| | |lia|lia].
    + intros c d Hc Hd. unfold schur. rewrite !E by lia. now apply (schur_cov n u).
    + intros c d Hc Hd. unfold schur. apply sm_minus; [apply S; lia|].
      apply sm_div; [apply sm_mult; apply S; lia|apply S; lia|lra].
Qed.
