(** Model of skillmodels/parse_params.py. Arrays are nested lists; the type of
    their entries is a parameter. *)
Require Import String Arith Bool List.
From Verif Require Import PyBase ModelSpec ProcessModel CheckModel ParamsIndex.
Import ListNotations.
Open Scope string_scope.
Open Scope list_scope.
Open Scope nat_scope.

Definition cat_eqb (a b : cat) : bool :=
  match a, b with
  | CControls, CControls | CLoadings, CLoadings | CMeasSds, CMeasSds
  | CShockSds, CShockSds | CInitStates, CInitStates | CMixWeights, CMixWeights
  | CInitChol, CInitChol | CTransition, CTransition => true
  | _, _ => false
  end.

(** [range_sr.loc[loc]] (parse_params.py:24, 79-90): the positions of the
    selected entries in index order, empty if there are none (the KeyError branch
    returns slice(0, 0)). *)
Definition positions (sel : label -> bool) (idx : list label) : list nat :=
  map fst (filter (fun il => sel (snd il)) (enumerate idx)).

(** parse_params.py:8-76 [create_parsing_info]. *)
Record parsing_info := mk_pinfo {
  pi_initial_states : list nat;
  pi_initial_cholcovs : list nat;
  pi_mixture_weights : list nat;
  pi_controls : list nat;
  pi_meas_sds : list nat;
  pi_shock_sds : list nat;
  pi_loadings : list nat;
  pi_load_flat_indices : list nat;
  pi_load_n_rows : nat;
  pi_load_n_cols : nat;
  pi_transition : dict (list nat);
  pi_is_anchoring_loading : list (list bool);
  pi_is_anchored_factor : list bool;
  pi_is_anchoring_update : list bool;
  pi_ignore_constant : bool }.

(** [helper[mask]] for helper = np.arange(mask.size).reshape(mask.shape)
    (parse_params.py:42-43): flat positions of the True entries. *)
Definition true_positions (mask : list (list bool)) : list nat :=
  map fst (filter snd (enumerate (concat mask))).

Definition is_anchoring (r : urow) : bool :=
  match u_purpose r with Some PAnchoring => true | _ => false end.

Definition create_parsing_info (idx : list label) (u : list urow) (l : labels)
    (a : anchinfo) : parsing_info :=
  let pos c := positions (fun lb => cat_eqb (lb_cat lb) c) idx in
  let mask := map (fun r => map (u_flag r) (l_latent l)) u in
  mk_pinfo (pos CInitStates) (pos CInitChol) (pos CMixWeights) (pos CControls)
    (pos CMeasSds) (pos CShockSds) (pos CLoadings)
    (true_positions mask) (length u) (length (l_latent l))
    (map (fun f => (f, positions (fun lb => cat_eqb (lb_cat lb) CTransition
                                            && String.eqb (lb_name1 lb) f) idx))
         (l_latent l))
    (map (fun r => map (fun f => u_flag r f && is_anchoring r) (l_latent l)) u)
    (map (fun f => existsb (fun r => is_anchoring r && u_flag r f) u) (l_latent l))
    (map is_anchoring u)
    (a_ignore_constant a).

Section Parse.
  Variable A : Type.
  Variables zero one : A.
  Variable flog : A -> A.  (* jnp.log *)

  (** [params[ilocs]] *)
  Definition gather (vec : list A) (pos : list nat) : list A :=
    map (fun i => nth i vec zero) pos.

  (** [arr.reshape(-1, k)] of a 1d array. *)
  Definition reshape_cols (k : nat) (l : list A) : result (list (list A)) :=
    if (k =? 0) then Err ShapeError
    else if length l mod k =? 0 then Ok (chunks (length l / k) k l)
    else Err ShapeError.

  (** [arr.reshape(n, -1)] of a 1d array. Simplification: n = 0 (models with
      only one period) is an error. *)
  Definition reshape_rows (n : nat) (l : list A) : result (list (list A)) :=
    if (n =? 0) then Err ShapeError
    else if length l mod n =? 0 then Ok (chunks n (length l / n) l)
    else Err ShapeError.

  (** [arr.at[i].set(v)] *)
  Fixpoint list_set (i : nat) (v : A) (l : list A) : list A :=
    match l, i with
    | [], _ => []
    | _ :: l', 0 => v :: l'
    | x :: l', S i' => x :: list_set i' v l'
    end.

  (** [arr.at[idx].set(vals)] for a 1d array; shapes have to agree.
      Simplification: numpy broadcasting of a length one [vals] is an error here,
      it cannot occur for the calls modelled. *)
  Definition scatter (idx : list nat) (vals arr : list A) : result (list A) :=
    if length idx =? length vals
    then Ok (fold_left (fun a iv => list_set (fst iv) (snd iv) a) (combine idx vals) arr)
    else Err ShapeError.

  (** parse_params.py:145-150 [_get_initial_states]. *)
  Definition get_initial_states (vec : list A) (info : parsing_info) (d : dims)
      (n_obs : nat) : result (list (list (list A))) :=
    let flat := gather vec (pi_initial_states info) in
    if length flat =? n_mixtures d * n_latent d
    then Ok (repeat (chunks (n_mixtures d) (n_latent d) flat) n_obs)
    else Err ShapeError.

  (** [jnp.tril_indices(n)] in row-major order. *)
  Definition tril_indices (n : nat) : list (nat * nat) :=
    flat_map (fun i => map (fun j => (i, j)) (seq 0 (S i))) (seq 0 n).

  Definition mat_set (ij : nat * nat) (v : A) (m : list (list A)) : list (list A) :=
    match nth_error m (fst ij) with
    | Some row =>
        firstn (fst ij) m ++ [list_set (snd ij) v row] ++ skipn (S (fst ij)) m
    | None => m
    end.

  (** [filler.T] of a square matrix *)
  Definition transpose (n : nat) (m : list (list A)) : list (list A) :=
    map (fun j => map (fun i => nth j (nth i m []) zero) (seq 0 n)) (seq 0 n).

  (** parse_params.py:153-166 [_get_initial_upper_chols]. *)
  Definition upper_chol_of_params (n : nat) (params : list A) : result (list (list A)) :=
    let tril := tril_indices n in
    if length tril =? length params
    then Ok (transpose n
          (fold_left (fun m iv => mat_set (fst iv) (snd iv) m) (combine tril params)
                     (repeat (repeat zero n) n)))
    else Err ShapeError.

  Definition get_initial_upper_chols (vec : list A) (info : parsing_info) (d : dims)
      (n_obs : nat) : result (list (list (list (list A)))) :=
    do chol_params <- reshape_rows (n_mixtures d) (gather vec (pi_initial_cholcovs info));
    do per_mixture <- mapM (upper_chol_of_params (n_latent d)) chol_params;
    Ok (repeat per_mixture n_obs).

  (** parse_params.py:169-172 [_get_initial_log_mixture_weights]. *)
  Definition get_initial_log_mixture_weights (vec : list A) (info : parsing_info)
      (n_obs : nat) : list (list A) :=
    repeat (map flog (gather vec (pi_mixture_weights info))) n_obs.

  (** parse_params.py:175-177 [_get_control_params]. *)
  Definition get_control_params (vec : list A) (info : parsing_info) (d : dims) :=
    reshape_cols (n_controls d) (gather vec (pi_controls info)).

  (** parse_params.py:180-186 [_get_loadings]. *)
  Definition get_loadings (vec : list A) (info : parsing_info) : result (list (list A)) :=
    do extended <- scatter (pi_load_flat_indices info) (gather vec (pi_loadings info))
                     (repeat zero (pi_load_n_rows info * pi_load_n_cols info));
    Ok (chunks (pi_load_n_rows info) (pi_load_n_cols info) extended).

  (** parse_params.py:189-191 [_get_meas_sds]. *)
  Definition get_meas_sds (vec : list A) (info : parsing_info) : list A :=
    gather vec (pi_meas_sds info).

  (** parse_params.py:194-196 [_get_shock_sds]. *)
  Definition get_shock_sds (vec : list A) (info : parsing_info) (d : dims) :=
    reshape_cols (n_latent d) (gather vec (pi_shock_sds info)).

  (** parse_params.py:199-207 [_get_transition_params]. *)
  Definition get_transition_params (vec : list A) (info : parsing_info) (l : labels)
    : result (dict (list (list A))) :=
    mapM (fun f =>
      do ilocs <- dget_err (pi_transition info) f;
      do rows <- reshape_rows (length (l_periods l) - 1) (gather vec ilocs);
      Ok (f, rows)) (l_latent l).

  (** [arr[mask]]: the entries where the mask is True, in order. *)
  Definition mask_select {B} (mask : list bool) (l : list B) : list B :=
    map snd (filter fst (combine mask l)).

  (** One row of [arr.at[:, mask].set(vals)]. *)
  Fixpoint mask_set (mask : list bool) (vals row : list A) : list A :=
    match mask, row with
    | true :: mask', _ :: row' =>
        match vals with
        | v :: vals' => v :: mask_set mask' vals' row'
        | [] => row
        end
    | false :: mask', x :: row' => x :: mask_set mask' vals row'
    | _, _ => row
    end.

  Definition count_true (mask : list bool) : nat := length (filter (fun b => b) mask).

  (** [arr.at[:, mask].set(vals)] where vals has shape (len(arr), k): k has to be
      the number of True entries, or one (broadcasting). *)
  Definition set_columns (mask : list bool) (vals arr : list (list A))
    : result (list (list A)) :=
    mapM (fun rv =>
      if length (snd rv) =? count_true mask then Ok (mask_set mask (snd rv) (fst rv))
      else match snd rv with
           | [v] => Ok (mask_set mask (repeat v (count_true mask)) (fst rv))
           | _ => Err ShapeError
           end) (combine arr vals).

  (** parse_params.py:210-232 [_get_anchoring_scaling_factors]. *)
  Definition get_anchoring_scaling_factors (loadings : list (list A))
      (info : parsing_info) (d : dims) : result (list (list A)) :=
    do free <- reshape_rows (n_periods d)
        (mask_select (concat (pi_is_anchoring_loading info)) (concat loadings));
    do sf <- set_columns (pi_is_anchored_factor info) free
        (repeat (repeat one (n_latent d)) (n_periods d));
    Ok (map (fun row => row ++ repeat one (n_observed d)) sf).

  (** parse_params.py:235-254 [_get_anchoring_constants]. *)
  Definition get_anchoring_constants (controls : list (list A))
      (info : parsing_info) (d : dims) : result (list (list A)) :=
    let start := repeat (repeat zero (n_latent d)) (n_periods d) in
    do cs <- (if negb (pi_ignore_constant info)
              then do values <- reshape_rows (n_periods d)
                     (mask_select (pi_is_anchoring_update info)
                        (map (fun row => nth 0 row zero) controls));
                   set_columns (pi_is_anchored_factor info) values start
              else Ok start);
    Ok (map (fun row => row ++ repeat zero (n_observed d)) cs).

  Record parsed := mk_parsed {
    ps_states : list (list (list A));            (* individual, mixture, factor *)
    ps_upper_chols : list (list (list (list A)));(* individual, mixture, row, column *)
    ps_log_weights : list (list A);              (* individual, mixture *)
    ps_controls : list (list A);                 (* update, control *)
    ps_loadings : list (list A);                 (* update, factor *)
    ps_meas_sds : list A;                        (* update *)
    ps_shock_sds : list (list A);                (* transition, factor *)
    ps_transition : dict (list (list A));        (* factor, transition, parameter *)
    ps_scaling : list (list A);                  (* period, factor *)
    ps_constants : list (list A) }.              (* period, factor *)

  (** parse_params.py:93-142 [parse_params]. *)
  Definition parse_params (vec : list A) (info : parsing_info) (d : dims) (l : labels)
      (n_obs : nat) : result parsed :=
    do states <- get_initial_states vec info d n_obs;
    do chols <- get_initial_upper_chols vec info d n_obs;
    do controls <- get_control_params vec info d;
    do loadings <- get_loadings vec info;
    do shocks <- get_shock_sds vec info d;
    do trans <- get_transition_params vec info l;
    do scaling <- get_anchoring_scaling_factors loadings info d;
    do constants <- get_anchoring_constants controls info d;
    Ok (mk_parsed states chols (get_initial_log_mixture_weights vec info n_obs)
          controls loadings (get_meas_sds vec info) shocks trans scaling constants).
End Parse.

Arguments gather {A} zero vec pos.
Arguments scatter {A} idx vals arr.
Arguments list_set {A} i v l.
Arguments mat_set {A} ij v m.
Arguments transpose {A} zero n m.
Arguments upper_chol_of_params {A} zero n params.
Arguments reshape_cols {A} k l.
Arguments reshape_rows {A} n l.
Arguments mask_set {A} mask vals row.
Arguments set_columns {A} mask vals arr.
Arguments get_initial_states {A} zero vec info d n_obs.
Arguments get_initial_upper_chols {A} zero vec info d n_obs.
Arguments get_initial_log_mixture_weights {A} zero flog vec info n_obs.
Arguments get_control_params {A} zero vec info d.
Arguments get_loadings {A} zero vec info.
Arguments get_meas_sds {A} zero vec info.
Arguments get_shock_sds {A} zero vec info d.
Arguments get_transition_params {A} zero vec info l.
Arguments get_anchoring_scaling_factors {A} one loadings info d.
Arguments get_anchoring_constants {A} zero controls info d.
Arguments parse_params {A} zero one flog vec info d l n_obs.
Arguments ps_states {A}. Arguments ps_upper_chols {A}. Arguments ps_log_weights {A}.
Arguments ps_controls {A}. Arguments ps_loadings {A}. Arguments ps_meas_sds {A}.
Arguments ps_shock_sds {A}. Arguments ps_transition {A}. Arguments ps_scaling {A}.
Arguments ps_constants {A}.
Arguments mk_parsed {A}.

(** The composition used in likelihood_function.py:60-62 and 236-238. *)
Definition parse_for {A} (zero one : A) (flog : A -> A) (p : processed) (vec : list A)
    (n_obs : nat) : result (parsed A) :=
  let idx := params_index_of p in
  parse_params zero one flog vec (create_parsing_info idx (p_update p) (p_labels p) (p_anch p))
    (p_dims p) (p_labels p) n_obs.
