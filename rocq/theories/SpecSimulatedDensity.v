(** What the words of property C110 mean: the random numbers that a simulation draws for an
    individual, by the names of factors and measurements, and a data set that contains
    simulated values. *)
Require Import Reals String Arith ZArith Bool List.
From Verif Require Import PyBase ModelSpec ProcessModel CheckModel SpecModel SpecParse SpecData SpecIndex
  ParamsIndex ParseParams ParamsVec ProcessData RSum Kalman SpecKalman Clipping Likelihood SpecLikelihood
  DebugData Simulate SpecSimulate SpecGaussian SpecStateSpace SpecModelDensity.
Import ListNotations.
Open Scope string_scope.
Open Scope list_scope.
Open Scope nat_scope.

(** The number of equations of period t that come before the equation of variable v. *)
Fixpoint place (t : nat) (v : string) (eqs : list (nat * string)) : nat :=
  match eqs with
  | [] => 0
  | (s, w) :: rest =>
      if s =? t then if String.eqb w v then 0 else S (place t v rest) else place t v rest
  end.

Section Drawn.
  Context {G : Type}.
  Variable rnd : random G.
  Variables (md : model_dict) (n n_ind : nat) (inp : inputs) (h : history (G := G)) (i : nat).

  (** The shocks to the factors of individual i at the end of period t. *)
  Definition drawn_shock (t : nat) : vec :=
    fst (rn_mvn rnd (hi_generator h t) (length (latent_of md)) (fun _ => 0%R)
           (diag (fun f => in_shock_sds inp t f ^ 2)%R) n_ind) i.

  (** The noise in variable v of individual i in period t. *)
  Definition drawn_noise (t : nat) (v : string) : R :=
    fst (measurement_noise rnd md n n_ind inp t (hi_measurement_generator h t)) i
      (place t v (equations md n)).
End Drawn.

(** The data of an individual come from a simulation of individual i: values of variables
    that have an equation are simulated values (some may be missing), controls and observed
    factors are those of the simulation. *)
Definition simulated_individual (md : model_dict) (n : nat) (controls observed : nat -> nat -> nat -> option R)
    (out : simulation) (i : nat) (data : nat -> string -> option R) : Prop :=
  (forall t v y, In (t, v) (equations md n) -> data t v = Some y ->
     shows n (si_measurements out) i t v (CNum y)) /\
  (forall t c, t < n -> c < S (length (controls_of md)) ->
     data t (nth c ("constant" :: controls_of md) "") = controls t i c) /\
  (forall t j f, t < n -> nth_error (observed_of md) j = Some f -> data t f = observed t i j).

Section Product.
  Variable md : model_dict.
  Variable val : label -> R.

  (** The density of independent normal shocks to all factors in period t. *)
  Definition shocks_density (t : nat) (shock : vec) : R :=
    rprod (length (latent_of md)) (fun j =>
      normal_density 0 (val (CShockSds, t, factor md j, "-") * val (CShockSds, t, factor md j, "-")) (shock j)).

  (** The density of the noise in a variable that is not missing. *)
  Definition noise_density (data : nat -> string -> option R) (noise : nat -> string -> R) (tv : nat * string) : R :=
    let (t, v) := tv in
    match data t v with
    | None => 1
    | Some _ => normal_density 0 (val (CMeasSds, t, v, "-") * val (CMeasSds, t, v, "-")) (noise t v)
    end.
End Product.
