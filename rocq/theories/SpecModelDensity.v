(** What the words of properties C70 and C71 mean: the density of the data of one
    individual and of its latent factors that a linear model without anchoring stands
    for, in terms of the names of the specification, the labels of the parameters and the
    variables of the data set. *)
Require Import Reals String Arith Bool List.
From Verif Require Import PyBase ModelSpec SpecModel SpecIndex ParamsIndex SpecParse RSum Kalman SpecKalman
  SpecTransition SpecGaussian SpecStateSpace.
Import ListNotations.
Open Scope R_scope.

(** Every factor has a linear transition function, and there is no anchoring. *)
Definition linear_model (md : model_dict) : Prop :=
  outcomes_of md = [] /\
  forall f fs, In (f, fs) (md_factors md) -> fs_transition fs = TStr "linear".

(** The value of each parameter by label; zero for labels the model does not have. *)
Definition parameter_values (idx : list label) (params : list R) (val : label -> R) : Prop :=
  (forall lb, In lb idx -> labelled idx params lb (val lb)) /\
  (forall lb, ~ In lb idx -> val lb = 0).

Fixpoint position (f : string) (l : list string) : option nat :=
  match l with
  | [] => None
  | g :: l' => if String.eqb f g then Some O else option_map S (position f l')
  end.

Section ModelDensity.
  Variable nan : R.
  Variable md : model_dict.
  Variable val : label -> R.                      (* the parameters *)
  Variable data : nat -> string -> option R.      (* the data: period, variable *)

  Definition factor (j : nat) : string := nth j (latent_of md) ""%string.
  Let n_factors : nat := length (latent_of md).

  (** The value of a latent or observed factor in a period. *)
  Definition factor_value (t : nat) (x : path) (f : string) : R :=
    match position f (latent_of md) with
    | Some j => x t j
    | None => to_number nan (data t f)
    end.

  (** The initial distribution: a mixture of normals. *)
  Definition initial_mixture (x : path) : R :=
    rsum (n_mixtures_of md) (fun e =>
      val (CMixWeights, O, mixture_name e, "-"%string)
      * mvn_density n_factors (fun j => val (CInitStates, O, mixture_name e, factor j))
          (fun r c => if (r <=? c)%nat
                      then val (CInitChol, O, mixture_name e, cov_name (factor c) (factor r))
                      else 0)
          (x O)).

  (** A measurement: loadings times factors, plus a constant, plus coefficients times
      controls, plus a normal error. A missing measurement contributes nothing. *)
  Definition measurement_equation (tv : nat * string) (x : path) : R :=
    let (t, v) := tv in
    match data t v with
    | None => 1
    | Some y =>
        normal_density
          (sum_of (latent_of md) (fun f => val (CLoadings, t, v, f) * factor_value t x f)
           + sum_of ("constant"%string :: controls_of md)
               (fun c => val (CControls, t, v, c) * to_number nan (data t c)))
          (val (CMeasSds, t, v, "-"%string) * val (CMeasSds, t, v, "-"%string)) y
    end.

  (** The factors of the next period: linear in the factors, plus a normal shock. *)
  Definition transition_equation (t : nat) (x : path) : R :=
    prod_list (map (fun f =>
      normal_density
        (linear_formula (latent_of md ++ observed_of md) (fun name => val (CTransition, t, f, name))
           (factor_value t x))
        (val (CShockSds, t, f, "-"%string) * val (CShockSds, t, f, "-"%string))
        (factor_value (S t) x f)) (latent_of md)).

  (** The joint density of the factors of the periods 0 to t and of the listed
      measurements. *)
  Definition model_density (eqs : list (nat * string)) (t : nat) (x : path) : R :=
    initial_mixture x * rprod t (fun s => transition_equation s x)
    * prod_list (map (fun tv => measurement_equation tv x) eqs).
End ModelDensity.

(** Parameters for which all of these are densities: no zero standard deviations, no
    zeros on the diagonal of the initial Cholesky factors, positive mixture weights that
    sum to one. *)
Definition regular_parameters (md : model_dict) (idx : list label) (val : label -> R) : Prop :=
  (forall t v, In (CMeasSds, t, v, "-"%string) idx -> val (CMeasSds, t, v, "-"%string) <> 0) /\
  (forall t f, In (CShockSds, t, f, "-"%string) idx -> val (CShockSds, t, f, "-"%string) <> 0) /\
  (forall e f, In (CInitChol, O, mixture_name e, cov_name f f) idx ->
     val (CInitChol, O, mixture_name e, cov_name f f) <> 0) /\
  (forall e, (e < n_mixtures_of md)%nat -> 0 < val (CMixWeights, O, mixture_name e, "-"%string)) /\
  rsum (n_mixtures_of md) (fun e => val (CMixWeights, O, mixture_name e, "-"%string)) = 1.
