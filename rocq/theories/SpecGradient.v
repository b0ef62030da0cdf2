(** What the words of properties C98 and C99 mean: derivatives of the log likelihood. *)
From Coquelicot Require Import Coquelicot.
Require Import Reals String List.
From Verif Require Import PyBase ModelSpec SpecModel SpecParse ParamsIndex ParamsVec RSum Likelihood Maximization.
Import ListNotations.
Open Scope R_scope.

(** The vector [v] with [y] at position [k]. *)
Definition put {A} (k : nat) (y : A) (v : list A) : list A := firstn k v ++ y :: skipn (S k) v.

(** What is expected of [jax.grad] (and of [jax.jacrev] and [jax.jacfwd] for scalar functions):
    the result has one entry per entry of the argument, and it is the partial derivative
    wherever there is one. *)
Definition correct_gradient (grad : grad_function) : Prop :=
  forall f v, length (grad f v) = length v /\
    forall k x (d : R), nth_error v k = Some x -> is_derive (fun y : R => f (put k y v)) x d ->
      nth_error (grad f v) k = Some d.

Definition correct_jax (grad : grad_function) (jax_attribute : string -> option grad_function) : Prop :=
  correct_gradient grad /\
  (exists rev, jax_attribute "jacrev"%string = Some rev /\ correct_gradient rev) /\
  (exists fwd, jax_attribute "jacfwd"%string = Some fwd /\ correct_gradient fwd).

(** The params DataFrame in which the row of parameter [lb] has the value [y]. *)
Definition set_value (params : list (label * R)) (lb : label) (y : R) : list (label * R) :=
  map (fun row => if label_eqb lb (fst row) then (lb, y) else row) params.

(** The value and the contribution of individual [i] that a log likelihood function
    reports, as functions of the value of one parameter. *)
Definition value_along (loglike : list (label * R) -> result output) params lb (y : R) : R :=
  match loglike (set_value params lb y) with Ok out => out_value out | Err _ => 0 end.
Definition contribution_along (loglike : list (label * R) -> result output) params lb (i : nat) (y : R) : R :=
  match loglike (set_value params lb y) with Ok out => out_contributions out i | Err _ => 0 end.

(** [d] is the partial derivative of the log likelihood with respect to parameter [lb]. *)
Definition partial_derivative (loglike : list (label * R) -> result output) params lb (d : R) : Prop :=
  exists x, In (lb, x) params /\ is_derive (value_along loglike params lb) x d.

(** ** Where the likelihood is differentiable (C99) *)

(** No standard deviation of a measurement and no diagonal element of the initial Cholesky
    factors is zero; the mixture weights are positive; shocks have nonzero standard
    deviations except for constant factors; the loadings of the anchoring equations are not
    zero; the share parameters of CES functions are positive and their substitution
    parameter is not zero. *)
Definition interior (md : model_dict) (params : list (label * R)) : Prop :=
  (forall t v x, In ((CMeasSds, t, v, "-"%string), x) params -> x <> 0) /\
  (forall e f x, In ((CInitChol, O, mixture_name e, cov_name f f), x) params -> x <> 0) /\
  (forall e x, In ((CMixWeights, O, mixture_name e, "-"%string), x) params -> 0 < x) /\
  (forall t f fs x, In (f, fs) (md_factors md) -> In ((CShockSds, t, f, "-"%string), x) params ->
     x <> 0 \/ fs_transition fs = TStr "constant") /\
  (forall t f o x, In (f, o) (outcomes_of md) -> In ((CLoadings, t, (o ++ "_" ++ f)%string, f), x) params -> x <> 0) /\
  (forall t f fs g x, In (f, fs) (md_factors md) ->
     fs_transition fs = TStr "log_ces" \/ fs_transition fs = TStr "log_ces_general" ->
     In g (latent_of md ++ observed_of md) -> In ((CTransition, t, f, g), x) params -> 0 < x) /\
  (forall t f fs x, In (f, fs) (md_factors md) -> fs_transition fs = TStr "log_ces" ->
     In ((CTransition, t, f, "phi"%string), x) params -> x <> 0).

(** A custom transition function is differentiable in its parameters, the factors and the
    vector of all states; [all] are the names of all factors and [names] those of its
    parameters. *)
Definition differentiable_custom (custom : string -> dict R -> dict R -> list R -> result R)
    (all : list string) (f : string) (names : list string) : Prop :=
  forall (x : R) (params env : R -> dict R) (states : R -> list R),
    (forall name, In name names -> exists g : R -> R, (forall y, dget (params y) name = Some (g y)) /\ ex_derive g x) ->
    (forall name, In name all -> exists g : R -> R, (forall y, dget (env y) name = Some (g y)) /\ ex_derive g x) ->
    (forall k, (k < length all)%nat -> exists g : R -> R, (forall y, nth_error (states y) k = Some (g y)) /\ ex_derive g x) ->
    ex_derive (fun y : R => match custom f (params y) (env y) (states y) with Ok r => r | Err _ => 0 end) x.

(** All transition functions are differentiable: robust_translog is not, at the bounds
    to which it clips the states. *)
Definition differentiable_transitions (custom : string -> dict R -> dict R -> list R -> result R) (md : model_dict) : Prop :=
  forall f fs, In (f, fs) (md_factors md) ->
    match fs_transition fs with
    | TStr s => s <> "robust_translog"%string
    | TFun _ (Some names) => differentiable_custom custom (latent_of md ++ observed_of md) f names
    | _ => True
    end.
