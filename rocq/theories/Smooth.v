(** Differentiable functions of one real variable: closure properties. *)
From Coquelicot Require Import Coquelicot.
Require Import Reals Lra Lia Arith Bool List.
From Verif Require Import RSum.
Import ListNotations.
Open Scope R_scope.

Definition smooth (f : R -> R) (x : R) : Prop := ex_derive f x.

Lemma sm_ext f g x : (forall y : R, f y = g y) -> smooth f x -> smooth g x.
Proof. intros E H. exact (ex_derive_ext f g x E H). Qed.

Lemma sm_ext_loc f g x : locally x (fun y : R => f y = g y) -> smooth f x -> smooth g x.
Proof. intros E H. exact (ex_derive_ext_loc f g x E H). Qed.

Lemma sm_const c x : smooth (fun _ => c) x.
Proof. apply (ex_derive_const c x). Qed.

Lemma sm_id x : smooth (fun y => y) x.
Proof. apply (ex_derive_id x). Qed.

Lemma sm_plus f g x : smooth f x -> smooth g x -> smooth (fun y => f y + g y) x.
Proof. intros F G. exact (ex_derive_plus f g x F G). Qed.

Lemma sm_opp f x : smooth f x -> smooth (fun y => - f y) x.
Proof. intros F. exact (ex_derive_opp f x F). Qed.

Lemma sm_minus f g x : smooth f x -> smooth g x -> smooth (fun y => f y - g y) x.
Proof. intros F G. exact (ex_derive_minus f g x F G). Qed.

Lemma sm_mult f g x : smooth f x -> smooth g x -> smooth (fun y => f y * g y) x.
Proof. intros F G. exact (ex_derive_mult f g x F G). Qed.

Lemma sm_div f g x : smooth f x -> smooth g x -> g x <> 0 -> smooth (fun y => f y / g y) x.
Proof. intros F G N. exact (ex_derive_div f g x F G N). Qed.

Lemma sm_comp f g x : smooth f (g x) -> smooth g x -> smooth (fun y => f (g y)) x.
Proof. intros F G. exact (ex_derive_comp f g x F G). Qed.

Lemma sm_exp f x : smooth f x -> smooth (fun y => exp (f y)) x.
Proof.
  intros F. apply (sm_comp exp f x); [|exact F]. apply ex_derive_Reals_1. apply derivable_pt_exp.
Qed.

Lemma sm_ln f x : smooth f x -> 0 < f x -> smooth (fun y => ln (f y)) x.
Proof.
  intros F P. apply (sm_comp ln f x); [|exact F]. exists (/ f x). apply is_derive_Reals. now apply derivable_pt_lim_ln.
Qed.

Lemma sm_sqrt f x : smooth f x -> 0 < f x -> smooth (fun y => sqrt (f y)) x.
Proof.
  intros F P. apply (sm_comp sqrt f x); [|exact F]. exists (/ (2 * sqrt (f x))). apply is_derive_Reals. now apply derivable_pt_lim_sqrt.
Qed.

Lemma sm_rsum n (f : nat -> R -> R) x : (forall k, (k < n)%nat -> smooth (f k) x) -> smooth (fun y => rsum n (fun k => f k y)) x.
Proof.
  induction n as [|n IH]; intros H; cbn [rsum]; [apply sm_const|]. apply sm_plus; [apply IH; intros; apply H; lia|apply H; lia].
Qed.

Lemma sm_continuous f x : smooth f x -> continuous f x.
Proof. intros H. exact (ex_derive_continuous f x H). Qed.

Lemma sm_nonzero f x : smooth f x -> f x <> 0 -> locally x (fun y : R => f y <> 0).
Proof.
  intros F N. apply sm_continuous in F. apply (F (fun z => z <> 0)).
  exists (mkposreal (Rabs (f x)) (Rabs_pos_lt _ N)). intros z Hz E. subst z.
  unfold ball in Hz. cbn in Hz. unfold AbsRing_ball, abs, minus, plus, opp in Hz. cbn in Hz.
  rewrite Rplus_0_l, Rabs_Ropp in Hz. lra.
Qed.

Lemma sm_positive f x : smooth f x -> 0 < f x -> locally x (fun y : R => 0 < f y).
Proof.
  intros F N. apply sm_continuous in F. apply (F (fun z => 0 < z)).
  exists (mkposreal (f x) N). intros z Hz.
  unfold ball in Hz. cbn in Hz. unfold AbsRing_ball, abs, minus, plus, opp in Hz. cbn in Hz.
  apply Rabs_def2 in Hz. lra.
Qed.

Lemma loc_and (P Q : R -> Prop) (x : R) : locally x P -> locally x Q -> locally x (fun y : R => P y /\ Q y).
Proof. intros H K. exact (filter_and (F := locally x) P Q H K). Qed.

Lemma loc_imp (P Q : R -> Prop) (x : R) : (forall y : R, P y -> Q y) -> locally x P -> locally x Q.
Proof. intros H K. exact (filter_imp (F := locally x) P Q H K). Qed.

Lemma loc_all (P : R -> Prop) (x : R) : (forall y : R, P y) -> locally x P.
Proof. intros H. exact (filter_forall (F := locally x) P H). Qed.

Lemma loc_at (P : R -> Prop) (x : R) : locally x P -> P x.
Proof. intros H. exact (locally_singleton x P H). Qed.

Lemma loc_nat n (P : nat -> R -> Prop) (x : R) :
  (forall k, (k < n)%nat -> locally x (P k)) -> locally x (fun y : R => forall k, (k < n)%nat -> P k y).
Proof.
  induction n as [|n IH]; intros H.
  - apply loc_all. intros y k Hk. lia.
  - apply (loc_imp (fun y => (forall k, (k < n)%nat -> P k y) /\ P n y)).
    + intros y [A B] k Hk. destruct (Nat.eq_dec k n) as [->|]; [exact B|apply A; lia].
    + apply loc_and; [apply IH; intros; apply H; lia|apply H; lia].
Qed.

Lemma loc_Forall {A} (l : list A) (P : A -> R -> Prop) (x : R) :
  Forall (fun a => locally x (P a)) l -> locally x (fun y : R => Forall (fun a => P a y) l).
Proof.
  induction 1 as [|a l H _ IH].
  - apply loc_all. intros y. constructor.
  - apply (loc_imp (fun y => P a y /\ Forall (fun a => P a y) l)); [|now apply loc_and].
    intros y [B C]. now constructor.
Qed.
