(** The graph of functions behind the transition function: decorators.py and
    process_model.py:168-232, with the contract of dags for concatenated functions.

    This is a finer model of what [TransitionFunctions.transition_function] describes. Functions
    are given by the names of their arguments and by what they return for keyword
    arguments. *)
Require Import Reals QArith String Arith Bool List.
From Verif Require Import PyBase ModelSpec ProcessModel RSum Kalman TransitionFunctions Heatmap.
Import ListNotations.
Open Scope string_scope.
Open Scope list_scope.
Open Scope nat_scope.

(** Values that are passed between functions: numbers, vectors, the parameters of all
    factors and parameters by name. *)
Inductive dvalue :=
| DNum (x : R) | DVec (l : list R) | DParams (d : dict (list R)) | DNamed (d : dict R).

(** A function: the names of its arguments and its result for keyword arguments. *)
Record dfunc := mk_dfunc { df_args : list string; df_body : dict dvalue -> result dvalue }.

(** [kwargs["params"][key]] *)
Definition select_key (key : string) (v : dvalue) : result dvalue :=
  match v with DParams d => do c <- dget_err d key; Ok (DVec c) | _ => Err TypeError end.

(** [dict(zip(names, params))] *)
Definition with_names (names : list string) (v : dvalue) : result dvalue :=
  match v with DVec c => Ok (DNamed (dict_of (combine names c))) | _ => Err TypeError end.

(** decorators.py:23-28, 32-37, 41-46: the wrappers. [functools.wraps] keeps the signature. *)
Definition with_params (convert : dvalue -> result dvalue) (f : dfunc) : dfunc :=
  mk_dfunc (df_args f) (fun kwargs =>
    do params <- dget_err kwargs "params";
    do params' <- convert params;
    df_body f (dset kwargs "params" params')).

(** decorators.py:6-53 [extract_params] *)
Definition extract_params (key : option string) (names : option (list string)) (f : dfunc) : result dfunc :=
  match key, names with
  | Some k, None => Ok (with_params (select_key k) f)
  | None, Some n => Ok (with_params (with_names n) f)
  | Some k, Some n => Ok (with_params (fun v => do c <- select_key k v; with_names n c) f)
  | None, None => Err ValueError
  end.

(** [rename_arguments] of dags, by contract. *)
Definition rename_argument (old new : string) (f : dfunc) : dfunc :=
  mk_dfunc (map (fun a => if String.eqb a old then new else a) (df_args f))
    (fun kwargs => df_body f (map (fun kv => (if String.eqb (fst kv) new then old else fst kv, snd kv)) kwargs)).

(** Conversion of arguments. *)
Definition as_num (v : dvalue) : result R := match v with DNum x => Ok x | _ => Err TypeError end.
Definition as_vec (v : dvalue) : result (list R) := match v with DVec l => Ok l | _ => Err TypeError end.
Definition vec_arg (kwargs : dict dvalue) (name : string) : result (list R) :=
  do v <- dget_err kwargs name; as_vec v.

(** process_model.py:206-207 [_extract_factor], with [partial] for [pos]. *)
Definition extract_factor (pos : nat) : dfunc :=
  mk_dfunc ["states"] (fun kwargs =>
    do states <- vec_arg kwargs "states"; do x <- nth_err states pos; Ok (DNum x)).

(** [f"__next_{fac}__"] *)
Definition next_name (factor : string) : string := ("__next_" ++ factor ++ "__")%string.

Section Graph.
  Variables nan neg_inf : R.

  (** The functions of transition_functions.py with their signatures (lines 37, 49, 82,
      109, 119, 139, 158). *)
  Definition builtin (t : tf_name) : dfunc :=
    match t with
    | TfConstant => mk_dfunc ["state"; "params"] (fun kwargs =>
        do state <- dget_err kwargs "state"; do x <- as_num state; Ok (DNum x))
    | _ => mk_dfunc ["states"; "params"] (fun kwargs =>
        do states <- vec_arg kwargs "states"; do params <- vec_arg kwargs "params";
        do y <- eval_tf nan neg_inf t 0%R states params; Ok (DNum y))
    end.

  (** The callable in the specification of a factor. *)
  Variable custom_function : string -> dfunc.

  (** process_model.py:175-196: what the loop appends to [func_list] for a factor. *)
  Definition function_of_spec (factor : string) (spec : trans_spec) : result (list dfunc) :=
    match spec with
    | TStr s =>
        match tf_of_string s with
        | Some t =>
            let f := match t with TfConstant => rename_argument "state" factor (builtin t) | _ => builtin t end in
            do f <- extract_params (Some factor) None f; Ok [f]
        | None => Err AttributeError
        end
    | TFun None _ => Err AttributeError
    | TFun (Some _) None => Err AttributeError
    | TFun (Some _) (Some names) =>
        do f <- extract_params (Some factor) (Some names) (custom_function factor); Ok [f]
    | TOther => Ok []
    end.

  (** process_model.py:200-210: the dictionary of functions. *)
  Definition dag_functions (latent all : list string) (func_list : list dfunc) : dict dfunc :=
    fold_left (fun d posfac => dset d (snd posfac) (extract_factor (fst posfac))) (enumerate all)
      (dict_of (combine (map next_name latent) func_list)).

  (** ** dags, by contract *)

  (** The value of a name: the result of the function with this name, given the values of
      its arguments, or else an input. [fuel] bounds the length of chains of functions; a
      chain that is longer than the number of functions goes in circles. *)
  Fixpoint evaluate (fuel : nat) (functions : dict dfunc) (inputs : dict dvalue) (name : string) : result dvalue :=
    match dget functions name with
    | None => dget_err inputs name
    | Some f =>
        match fuel with
        | O => Err DagError
        | S fuel =>
            do values <- mapM (evaluate fuel functions inputs) (df_args f);
            df_body f (combine (df_args f) values)
        end
    end.

  (** The inputs on which the value of a name depends. *)
  Fixpoint free_arguments (fuel : nat) (functions : dict dfunc) (name : string) : result (list string) :=
    match dget functions name with
    | None => Ok [name]
    | Some f =>
        match fuel with
        | O => Err DagError
        | S fuel => do ls <- mapM (free_arguments fuel functions) (df_args f); Ok (concat ls)
        end
    end.

  (** The concatenated function is called with two positional arguments
      (process_model.py:218, 223: [in_axes] has two entries); its arguments are sorted by
      name. Another number of arguments is an error of dags ([OtherError]). *)
  Definition bind_inputs (free : list string) (first second : dvalue) : result (dict dvalue) :=
    match nodup string_dec free with
    | [a; b] => Ok (if String.ltb a b then [(a, first); (b, second)] else [(b, first); (a, second)])
    | _ => Err OtherError
    end.

  Definition concatenate_functions (functions : dict dfunc) (targets : list string)
    : result (dvalue -> dvalue -> result (list dvalue)) :=
    if forallb (fun t => smem t (dkeys functions)) targets then
      do free <- mapM (free_arguments (S (length functions)) functions) targets;
      Ok (fun params states =>
            do inputs <- bind_inputs (concat free) params states;
            mapM (evaluate (S (length functions)) functions inputs) targets)
    else Err DagError.

  (** process_model.py:175-210 *)
  Definition get_dag (md : model_dict) (l : labels) : result (dict dfunc) :=
    do funcs <- mapM (fun f => do fs <- dget_err (md_factors md) f; function_of_spec f (fs_transition fs)) (l_latent l);
    Ok (dag_functions (l_latent l) (l_all l) (concat funcs)).

  (** process_model.py:212-218 with decorators.py:56-65 [jax_array_output]: the transition
      function for one row of states. *)
  Definition dag_transition (md : model_dict) (l : labels) (params : dict (list R)) (states : list R)
    : result (list R) :=
    do functions <- get_dag md l;
    do func <- concatenate_functions functions (map next_name (l_latent l));
    do values <- func (DParams params) (DVec states);
    mapM as_num values.

  (** process_model.py:220-224: the function for one factor. *)
  Definition dag_individual (md : model_dict) (l : labels) (factor : string) (params : dict (list R)) (states : list R)
    : result R :=
    do functions <- get_dag md l;
    do func <- concatenate_functions functions [next_name factor];
    do values <- func (DParams params) (DVec states);
    do v <- nth_err values 0;
    as_num v.
End Graph.
