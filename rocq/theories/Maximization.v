(** Model of likelihood_function.py:26-173 [get_maximization_inputs] as a whole: the
    dictionary it returns, with gradients. *)
Require Import Reals QArith String List.
From Verif Require Import PyBase ModelSpec ProcessModel CheckModel ParamsIndex ParseParams ParamsVec ProcessData
  RSum Kalman Likelihood DebugData Constraints.
Import ListNotations.
Open Scope R_scope.

(** What [jax.grad], [jax.jacrev] and [jax.jacfwd] make of a scalar function of a
    vector; [has_aux] only passes the auxiliary data through. *)
Definition grad_function := (list R -> R) -> list R -> list R.

Section Maximization.
  Variable qr : qr_function.
  Variable nan : R.
  Variable tfunc : dict (list R) -> vec -> vec.
  (** [jax.grad] and [getattr(jax, name)] (None: no such attribute). *)
  Variable grad : grad_function.
  Variable jax_attribute : string -> option grad_function.

  (** likelihood_function.py:108 and 303: the first component of the result of [_loglike],
      which is differentiated. Where the likelihood raises, the differentiated function
      raises as well before any derivative is taken, so that the number returned here
      for this case is not used. *)
  Definition scalar_loglike (p : processed) (ar : arrays R) (v : list R) : R :=
    match log_likelihood qr nan tfunc p ar false v with
    | Ok out => out_value out
    | Err _ => 0
    end.

  (** likelihood_function.py:111-112: a differentiated [_loglike] returns the derivative
      and the auxiliary data. *)
  Definition differentiated (d : grad_function) (p : processed) (ar : arrays R) (v : list R)
    : result (list R * output) :=
    do out <- log_likelihood qr nan tfunc p ar false v;
    Ok (d (scalar_loglike p ar) v, out).

  (** likelihood_function.py:162-170 *)
  Record maximization_inputs := mk_maximization {
    mi_loglike : list (label * R) -> result output;
    mi_debug_loglike : list (label * R) -> result debug_tables;
    mi_gradient : list (label * R) -> result (list R);
    mi_jacobian : list (label * R) -> result (list R);
    mi_loglike_and_gradient : list (label * R) -> result (output * list R);
    mi_constraints : list constraint;
    mi_params_template : list (label * option Q) }.

  (** likelihood_function.py:26-173. [jax.jit] has no effect on results; the check that
      the contributions have dtype float64 always passes because of
      [config.update("jax_enable_x64", True)]. *)
  Definition get_maximization_inputs (md : model_dict) (df : frame R) (jacobian_type : string)
    : result maximization_inputs :=
    do p <- process_model md;
    do ar <- process_data 1 req df (p_labels p) (p_update p) (p_anch p) true;
    do jac <- match jax_attribute jacobian_type with Some d => Ok d | None => Err AttributeError end;
    let params_vec params := get_params_vec params (params_index_of p) in
    Ok (mk_maximization
      (* 124-129 *)
      (fun params => do v <- params_vec params; log_likelihood qr nan tfunc p ar false v)
      (* 114-122 *)
      (fun params =>
         do v <- params_vec params;
         do out <- log_likelihood qr nan tfunc p ar true v;
         match out_debug out with
         | Some dbg => process_debug_data p (length (nth 0 (ar_controls ar) [])) out dbg
         | None => Err OtherError    (* unreachable: debug = true *)
         end)
      (* 131-134 *)
      (fun params => do v <- params_vec params; do r <- differentiated grad p ar v; Ok (fst r))
      (* 136-139 *)
      (fun params => do v <- params_vec params; do r <- differentiated jac p ar v; Ok (fst r))
      (* 141-147 *)
      (fun params => do v <- params_vec params; do r <- differentiated grad p ar v; Ok (snd r, fst r))
      (get_constraints p) (params_template p)).
End Maximization.
