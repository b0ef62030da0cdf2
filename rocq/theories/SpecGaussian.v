(** Densities of multivariate normal distributions, independent of any filter. *)
Require Import Reals Arith Bool List.
From Verif Require Import RSum Kalman SpecKalman.
Import ListNotations.
Open Scope R_scope.

(** f 0 * ... * f (n-1) *)
Fixpoint rprod (n : nat) (f : nat -> R) : R :=
  match n with
  | O => 1
  | S n' => rprod n' f * f n'
  end.

(** The covariance matrix is u'u for an upper triangular u with non-zero diagonal. *)
Definition proper_root (n : nat) (u : mat) : Prop :=
  upper_triangular n u /\ forall a, (a < n)%nat -> u a a <> 0.

(** The coordinates z with e = u' z, one after the other:
    e_k = u_0k z_0 + ... + u_kk z_k. *)
Fixpoint solve (u : mat) (e : vec) (k : nat) : vec :=
  match k with
  | O => fun _ => 0
  | S k' =>
      let z := solve u e k' in
      fun a => if (a =? k')%nat then (e k' - rsum k' (fun c => u c k' * z c)) / u k' k' else z a
  end.
Definition standardized (n : nat) (mean : vec) (u : mat) (x : vec) : vec :=
  solve u (fun a => x a - mean a) n.

(** Density of N(mean, u'u) at x: x = mean + u' z for a vector z of independent standard
    normal variables. *)
Definition mvn_density (n : nat) (mean : vec) (u : mat) (x : vec) : R :=
  rprod n (fun a => normal_density 0 1 (standardized n mean u x a) / Rabs (u a a)).
