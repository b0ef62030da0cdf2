(** Model of skillmodels/transition_functions.py and of the concatenated transition
    function built in process_model.py:168-232 with decorators.py.

    Simplifications: floating point numbers are real numbers; [nan] and [neg_inf] are
    arbitrary numbers that stand for NaN and minus infinity, which arise from logarithms
    of numbers that are not positive. dags is modelled by its contract: the targets are
    computed from the functions they depend on. Factors called "states" or "params"
    (which collide with the arguments of the functions in the DAG) are not modelled. *)
Require Import Reals QArith String Arith Bool List.
From Verif Require Import PyBase ModelSpec ProcessModel RSum Kalman.
Import ListNotations.
Open Scope R_scope.

(** [jnp.dot] of two vectors: a ShapeError unless they have the same length. *)
Fixpoint dot_err (a b : list R) : result R :=
  match a, b with
  | [], [] => Ok 0
  | x :: a', y :: b' => do s <- dot_err a' b'; Ok (x * y + s)
  | _, _ => Err ShapeError
  end.

(** [l[-1]] *)
Definition last_err (l : list R) : result R :=
  match l with [] => Err IndexError | x :: l' => Ok (last l' x) end.

(** Elementwise operations on two vectors of the same length. *)
Fixpoint zip_err (f : R -> R -> R) (a b : list R) : result (list R) :=
  match a, b with
  | [], [] => Ok []
  | x :: a', y :: b' => do s <- zip_err f a' b'; Ok (f x y :: s)
  | _, _ => Err ShapeError
  end.

Section Functions.
  Variables nan neg_inf : R.

  (** transition_functions.py:37-41 [linear] *)
  Definition tf_linear (states params : list R) : result R :=
    do constant <- last_err params;
    do s <- dot_err states (removelast params);
    Ok (s + constant).

  (** transition_functions.py:49-68 [translog]; [zip] stops at the shorter list. *)
  Definition tf_translog (states params : list R) : result R :=
    let nfac := length states in
    do constant <- last_err params;
    let lin_beta := firstn nfac params in
    let square_beta := firstn nfac (skipn nfac params) in
    let inter_beta := removelast (skipn (2 * nfac) params) in
    do a <- dot_err states lin_beta;
    do b <- dot_err (map (fun x => x ^ 2) states) square_beta;
    let c := fold_left (fun res pab => res + fst pab * nth (fst (snd pab)) states 0 * nth (snd (snd pab)) states 0)
               (combine inter_beta (combinations2 (range nfac))) (a + b) in
    Ok (c + constant).

  (** [jnp.log]: None is minus infinity; the logarithm of a negative number is NaN. *)
  Definition log_ext (g : R) : option R :=
    if Req_EM_T g 0 then None else Some (if Rlt_dec g 0 then nan else ln g).

  (** [jax.scipy.special.logsumexp] of a vector that may contain minus infinity: such
      entries contribute exp(-inf) = 0 and do not change the maximum. *)
  Definition finite_entries (l : list (option R)) : list R :=
    flat_map (fun o => match o with Some x => [x] | None => [] end) l.
  Definition logsumexp_ext (l : list (option R)) : R :=
    match finite_entries l with
    | [] => neg_inf
    | x :: l' => logsumexp (S (length l')) (fun k => nth k (x :: l') 0)
    end.

  (** logsumexp(log(gammas) + powers); NaN if some gamma is negative. *)
  Definition weighted_logsumexp (gammas powers : list R) : R :=
    if existsb (fun g => if Rlt_dec g 0 then true else false) gammas then nan
    else logsumexp_ext (map (fun gx => option_map (fun lg => lg + snd gx) (log_ext (fst gx)))
                          (combine gammas powers)).

  (** transition_functions.py:82-95 [log_ces] *)
  Definition tf_log_ces (states params : list R) : result R :=
    do phi <- last_err params;
    let gammas := removelast params in
    let scaling_factor := 1 / phi in
    if (length gammas =? length states)%nat
    then Ok (weighted_logsumexp gammas (map (fun x => x * phi) states) * scaling_factor)
    else Err ShapeError.

  (** transition_functions.py:119-132 [robust_translog], with [jnp.clip] *)
  Definition clip_bound : R := IZR (10 ^ 12).
  Definition clip (x : R) : R := Rmin (Rmax x (- clip_bound)) clip_bound.
  Definition tf_robust_translog (states params : list R) : result R :=
    tf_translog (map clip states) params.

  (** transition_functions.py:139-149 [linear_and_squares] *)
  Definition tf_linear_and_squares (states params : list R) : result R :=
    let nfac := length states in
    do constant <- last_err params;
    let lin_beta := firstn nfac params in
    let square_beta := firstn nfac (skipn nfac params) in
    do a <- dot_err states lin_beta;
    do b <- dot_err (map (fun x => x ^ 2) states) square_beta;
    Ok (a + b + constant).

  (** transition_functions.py:158-172 [log_ces_general] *)
  Definition tf_log_ces_general (states params : list R) : result R :=
    let n := length states in
    do tfp <- last_err params;
    let gammas := firstn n params in
    let sigmas := firstn n (skipn n params) in
    do powers <- zip_err Rmult states sigmas;
    if (length gammas =? n)%nat
    then Ok (weighted_logsumexp gammas powers * tfp)
    else Err ShapeError.

  (** The implemented functions; [constant] (transition_functions.py:109-111) gets the
      state of the factor itself. *)
  Definition eval_tf (t : tf_name) (own : R) (states params : list R) : result R :=
    match t with
    | TfLinear => tf_linear states params
    | TfTranslog => tf_translog states params
    | TfLogCes => tf_log_ces states params
    | TfConstant => Ok own
    | TfRobustTranslog => tf_robust_translog states params
    | TfLinearAndSquares => tf_linear_and_squares states params
    | TfLogCesGeneral => tf_log_ces_general states params
    end.

  (** Custom functions: what the callable in the specification of a factor returns,
      given its parameters by name, the states of the factors by name and the vector
      of all states. *)
  Variable custom : string -> dict R -> dict R -> list R -> result R.

  (** A dict built from pairs: later entries replace earlier ones. *)
  Definition dict_of {V} (l : list (string * V)) : dict V := rev l.

  (** process_model.py:204-210: the functions that extract the factors. *)
  Definition factor_states (all : list string) (states : list R) : dict R :=
    dict_of (combine all states).

  (** process_model.py:175-202 with decorators.py:21-47: the function
      [__next_{factor}__]. *)
  Definition next_state (all : list string) (factor : string) (spec : trans_spec)
      (params : dict (list R)) (states : list R) : result R :=
    match spec with
    | TStr s =>
        match tf_of_string s with
        | Some t =>
            do own <- dget_err (factor_states all states) factor;
            do coeffs <- dget_err params factor;
            eval_tf t own states coeffs
        | None => Err AttributeError
        end
    | TFun _ (Some names) =>
        do coeffs <- dget_err params factor;
        custom factor (dict_of (combine names coeffs)) (factor_states all states) states
    | TFun _ None => Err AttributeError
    | TOther => Err DagError
    end.

  (** process_model.py:212-218, transition_info["func"] for one row of states (the code
      maps it over the rows with [vmap]). *)
  Definition transition_function (md : model_dict) (l : labels) (params : dict (list R))
      (states : list R) : result (list R) :=
    mapM (fun f =>
      do fs <- dget_err (md_factors md) f;
      next_state (l_all l) f (fs_transition fs) params states) (l_latent l).

  (** process_model.py:220-224: transition_info["individual_functions"]. *)
  Definition individual_function (md : model_dict) (l : labels) (factor : string)
      (params : dict (list R)) (states : list R) : result R :=
    do fs <- dget_err (md_factors md) factor;
    next_state (l_all l) factor (fs_transition fs) params states.

  (** transition_info["func"] as the total function that the model of the filter
      expects (Likelihood.v); C57 shows that it does not fail. *)
  Definition model_tfunc (md : model_dict) (l : labels) : dict (list R) -> vec -> vec :=
    fun params row f =>
      match transition_function md l params (map row (seq 0 (length (l_all l)))) with
      | Ok next => nth f next 0
      | Err _ => nan
      end.
End Functions.
