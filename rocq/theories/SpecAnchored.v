(** What the words of property C107 mean: the density a linear model with anchoring stands
    for, given one element of the mixture. *)
Require Import Reals String Arith Bool List.
From Verif Require Import PyBase ModelSpec SpecModel SpecIndex ParamsIndex SpecParse RSum Kalman SpecKalman
  SpecTransition SpecGaussian SpecStateSpace SpecLikelihood SpecModelDensity SpecQuadratic.
Import ListNotations.
Open Scope R_scope.

(** Every factor has a linear transition function. *)
Definition linear_productions (md : model_dict) : Prop :=
  forall f fs, In (f, fs) (md_factors md) -> fs_transition fs = TStr "linear".

(** The measurement equations among the listed equations: all but the anchoring equations. *)
Definition measurements_among (md : model_dict) (eqs : list (nat * string)) : list (nat * string) :=
  filter (fun tv => negb (is_anchoring_equation md (snd tv))) eqs.

Section AnchoredDensity.
  Variable nan : R.
  Variable md : model_dict.
  Variable val : label -> R.                      (* the parameters *)
  Variable data : nat -> string -> option R.      (* the data: period, variable *)

  (** The distribution of the first latent factors in mixture element e. *)
  Definition initial_element (e : nat) (x : path) : R :=
    mvn_density (length (latent_of md)) (fun j => val (CInitStates, O, mixture_name e, factor md j))
      (fun r c => if (r <=? c)%nat
                  then val (CInitChol, O, mixture_name e, cov_name (factor md c) (factor md r))
                  else 0)
      (x O).

  (** The inputs of the production functions: anchored latent factors, and observed
      factors. *)
  Definition anchored_value (t : nat) (x : path) (f : string) : R :=
    match position f (latent_of md) with
    | Some j => anchoring_scale md val t f * x t j + anchoring_constant md val t f
    | None => to_number nan (data t f)
    end.

  (** The factors of the next period: linear in the anchored factors, translated back from
      the anchored to the latent scale, plus a normal shock. *)
  Definition anchored_transition_equation (t : nat) (x : path) : R :=
    prod_list (map (fun f =>
      normal_density
        ((linear_formula (latent_of md ++ observed_of md) (fun name => val (CTransition, t, f, name))
            (anchored_value t x) - anchoring_constant md val (t + 1) f) / anchoring_scale md val (t + 1) f)
        (val (CShockSds, t, f, "-"%string) * val (CShockSds, t, f, "-"%string))
        (factor_value nan md data (S t) x f)) (latent_of md)).

  (** The joint density of the factors of the periods 0 to t and of the variables of the
      listed equations, given that element e was drawn. *)
  Definition element_density (e : nat) (eqs : list (nat * string)) (t : nat) (x : path) : R :=
    initial_element e x * rprod t (fun s => anchored_transition_equation s x)
    * prod_list (map (fun tv => measurement_equation nan md val data tv x) eqs).
End AnchoredDensity.
