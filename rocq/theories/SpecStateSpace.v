(** What the words of properties C70 and C71 mean: the density of the data and the latent
    factors in a linear state space model, and integrals over latent factors. *)
From Coquelicot Require Import Coquelicot.
Require Import Reals Arith Bool List.
From Verif Require Import PyBase RSum Kalman SpecKalman SpecGaussian SpecLikelihood.
Import ListNotations.
Open Scope R_scope.

(** ** Integrals over several variables *)

(** The latent factors of one individual: a vector for each period. *)
Definition path := nat -> vec.
Definition set_entry (x : path) (t a : nat) (v : R) : path :=
  fun s => if (s =? t)%nat then (fun b => if (b =? a)%nat then v else x s b) else x s.

(** The improper integral of f over the real line is l. *)
Definition line_integral (f : R -> R) (l : R) : Prop :=
  is_RInt_gen f (Rbar_locally m_infty) (Rbar_locally p_infty) l.

(** Integrating f over the listed entries (period, factor) of the path, one after the
    other and the first entry first, yields g. *)
Fixpoint integrates (entries : list (nat * nat)) (f g : path -> R) : Prop :=
  match entries with
  | [] => forall x, f x = g x
  | (t, a) :: entries' =>
      exists f', (forall x, line_integral (fun v => f (set_entry x t a v)) (f' x)) /\
                 integrates entries' f' g
  end.

(** All entries of a period, and of all periods before t. *)
Definition period_entries (n t : nat) : list (nat * nat) := map (fun a => (t, a)) (rev (seq 0 n)).
Definition entries_before (n t : nat) : list (nat * nat) := flat_map (period_entries n) (seq 0 t).

(** ** The state space model *)

Definition prod_list (l : list R) : R := fold_right Rmult 1 l.

Section StateSpace.
  Variable nan : R.
  Variable tfunc : dict (list R) -> vec -> vec.
  Variables (n_mixtures n_latent n_controls : nat).
  Variable inp : inputs.
  Variable b : belief.   (* the initial distribution *)
  Variable i : nat.      (* the individual *)

  (** Density of the first latent factors under mixture element m. *)
  Definition initial_density (m : nat) (x : path) : R :=
    exp (be_logw b i m) * mvn_density n_latent (be_states b i m) (be_chols b i m) (x O).

  (** Density of measurement k of period t given the factors: loadings times factors
      plus coefficients times controls plus an independent normal error. Nothing is
      known about a missing measurement. *)
  Definition equation_density (k t : nat) (x : path) : R :=
    match in_values inp k i with
    | None => 1
    | Some y =>
        normal_density
          (dot n_latent (x t) (in_loadings inp k)
           + dot n_controls (fun c => to_number nan (in_controls inp t i c)) (in_control_params inp k))
          (in_sd inp k * in_sd inp k) y
    end.

  (** Density of the factors of period t + 1 given those of period t: the (anchored)
      transition function plus independent normal shocks. *)
  Definition expected_next (t : nat) (x : vec) : vec :=
    anchored_transition (tfunc (in_coeffs inp t)) (fun r => in_scaling inp (t + r)%nat)
      (fun r => in_constants inp (t + r)%nat)
      (all_factors n_latent x (fun o => to_number nan (in_observed inp t i o))).
  Definition shock_density (t : nat) (x : path) : R :=
    rprod n_latent (fun a =>
      normal_density (expected_next t (x t) a) (in_shock_sds inp t a * in_shock_sds inp t a) (x (S t) a)).

  (** Joint density of the latent factors of periods 0 to t and of the measurements
      listed as (number of the equation, period). *)
  Definition joint_density (eqs : list (nat * nat)) (t : nat) (x : path) : R :=
    rsum n_mixtures (fun m => initial_density m x)
    * rprod t (fun s => shock_density s x)
    * prod_list (map (fun kt => equation_density (fst kt) (snd kt) x) eqs).
End StateSpace.
