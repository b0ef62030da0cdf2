(** Model of skillmodels/process_model.py (and the names of parameters from
    skillmodels/transition_functions.py). *)
Require Import String Arith ZArith QArith Bool List.
From Verif Require Import PyBase ModelSpec.
Import ListNotations.
Open Scope string_scope.
Open Scope list_scope.
Open Scope nat_scope.

(** process_model.py:72-80, the dict [dims]. [n_all_factors] is derived. *)
Record dims := mk_dims {
  n_latent : nat; n_observed : nat; n_periods : nat; n_controls : nat; n_mixtures : nat }.

(** process_model.py:59-81 [get_dimensions]. *)
Definition get_dimensions (md : model_dict) : result dims :=
  let all_n_periods := map (fun d => length (fs_measurements d)) (dvalues (md_factors md)) in
  do np <- py_max all_n_periods;
  match md_options md with
  | None => Err KeyError    (* model_dict["estimation_options"] *)
  | Some o =>
      Ok (mk_dims (length (md_factors md))
                  (length (get_default (md_observed md) []))
                  np
                  (length (get_default (md_controls md) []) + 1)
                  (get_default (os_n_mixtures o) 1))
  end.

(** np.unique followed by sorted (process_model.py:105): the sorted list of
    distinct entries, by insertion. *)
Fixpoint zinsert (x : Z) (l : list Z) : list Z :=
  match l with
  | [] => [x]
  | y :: l' => if Z.eqb x y then y :: l'
               else if Z.ltb x y then x :: y :: l' else y :: zinsert x l'
  end.
Definition zsort_unique (l : list Z) : list Z := fold_right zinsert [] l.

(** process_model.py:99-108, the dict [labels] (transition_names is kept in
    [processed], it is added in process_model.py:45). *)
Record labels := mk_labels {
  l_latent : list string; l_observed : list string; l_controls : list string;
  l_periods : list nat; l_stagemap : list Z; l_stages : list Z }.

(** process_model.py:108 *)
Definition l_all (l : labels) : list string := l_latent l ++ l_observed l.

(** process_model.py:84-110 [_get_labels]. [range(n_periods - 1)] is empty for
    n_periods = 0 in Python, as with truncated subtraction here. *)
Definition get_labels (md : model_dict) (d : dims) : labels :=
  let stagemap := get_default (md_stagemap md) (map Z.of_nat (range (n_periods d - 1))) in
  mk_labels (dkeys (md_factors md))
            (get_default (md_observed md) [])
            ("constant" :: get_default (md_controls md) [])
            (range (n_periods d))
            stagemap
            (zsort_unique stagemap).

(** process_model.py:123-137, processed estimation options. *)
Record options := mk_options {
  o_sigma_points_scale : Q; o_robust_bounds : bool; o_bounds_distance : Q;
  o_clip_lower : option Q; o_clip_upper : option Q;
  o_clip_lower_hardness : Q; o_clip_upper_hardness : Q }.

(** process_model.py:113-137 [_process_estimation_options]. *)
Definition process_estimation_options (md : model_dict) : options :=
  let o := get_default (md_options md) (mk_opts None None None None None None None None) in
  let robust := get_default (os_robust_bounds o) true in
  let dist := get_default (os_bounds_distance o) (1 # 1000) in
  mk_options (get_default (os_sigma_points_scale o) 2%Q)
             robust
             (if negb robust then 0%Q else dist)
             (get_default (os_clip_lower o) (Some (inject_Z (- 10 ^ 250))))
             (get_default (os_clip_upper o) None)
             (get_default (os_clip_lower_hardness o) 1%Q)
             (get_default (os_clip_upper_hardness o) 1%Q).

(** process_model.py:150-165, the dict [anchinfo]. *)
Record anchinfo := mk_anchinfo {
  a_anchoring : bool; a_outcomes : dict string; a_factors : list string;
  a_free_controls : bool; a_free_constant : bool; a_free_loadings : bool;
  a_ignore_constant : bool }.

(** process_model.py:140-165 [_process_anchoring]. *)
Definition process_anchoring (md : model_dict) : anchinfo :=
  match md_anchoring md with
  | None => mk_anchinfo false [] [] false false false false
  | Some a =>
      let outcomes := get_default (as_outcomes a) [] in
      mk_anchinfo true outcomes (dkeys outcomes)
                  (get_default (as_free_controls a) false)
                  (get_default (as_free_constant a) false)
                  (get_default (as_free_loadings a) false)
                  (get_default (as_ignore_constant a) false)
  end.

(** transition_functions.py: the implemented transition functions. *)
Inductive tf_name :=
| TfLinear | TfTranslog | TfLogCes | TfConstant | TfRobustTranslog
| TfLinearAndSquares | TfLogCesGeneral.

(** [getattr(tf, spec)] together with [getattr(tf, f"params_{spec}")]
    (process_model.py:178,182): both exist exactly for these names. *)
Definition tf_of_string (s : string) : option tf_name :=
  if String.eqb s "linear" then Some TfLinear
  else if String.eqb s "translog" then Some TfTranslog
  else if String.eqb s "log_ces" then Some TfLogCes
  else if String.eqb s "constant" then Some TfConstant
  else if String.eqb s "robust_translog" then Some TfRobustTranslog
  else if String.eqb s "linear_and_squares" then Some TfLinearAndSquares
  else if String.eqb s "log_ces_general" then Some TfLogCesGeneral
  else None.

(** transition_functions.py:44-46, 71-79, 98-100, 114-116, 135-136, 152-155,
    175-177: the functions [params_*]. *)
Definition square_name (f : string) : string := (f ++ " ** 2")%string.
Definition product_name (ab : string * string) : string := (fst ab ++ " * " ++ snd ab)%string.

Definition params_linear (factors : list string) := factors ++ ["constant"].
Definition params_translog (factors : list string) :=
  factors ++ map square_name factors ++ map product_name (combinations2 factors)
          ++ ["constant"].
Definition params_log_ces (factors : list string) := factors ++ ["phi"].
Definition params_constant (factors : list string) : list string := [].
Definition params_robust_translog (factors : list string) := params_translog factors.
Definition params_linear_and_squares (factors : list string) :=
  factors ++ map square_name factors ++ ["constant"].
Definition params_log_ces_general (factors : list string) :=
  factors ++ map (fun f => "sigma_" ++ f)%string factors ++ ["tfp"].

Definition tf_params (t : tf_name) (factors : list string) : list string :=
  match t with
  | TfLinear => params_linear factors
  | TfTranslog => params_translog factors
  | TfLogCes => params_log_ces factors
  | TfConstant => params_constant factors
  | TfRobustTranslog => params_robust_translog factors
  | TfLinearAndSquares => params_linear_and_squares factors
  | TfLogCesGeneral => params_log_ces_general factors
  end.

(** process_model.py:175-198: parameter names and function name of one latent
    factor. A specification that is neither a string nor callable is skipped by
    the loop; the missing function then makes dags fail in
    process_model.py:212 (DagError here). The concatenated function itself is
    modelled in [TransitionFunctions.v]. *)
Definition transition_of_spec (all_factors : list string) (spec : trans_spec)
  : result (list string * string) :=
  match spec with
  | TStr s =>
      match tf_of_string s with
      | Some t => Ok (tf_params t all_factors, s)
      | None => Err AttributeError
      end
  | TFun None _ => Err AttributeError
  | TFun (Some _) None => Err AttributeError
  | TFun (Some n) (Some names) => Ok (names, n)
  | TOther => Err DagError
  end.

(** process_model.py:226-231: [param_names] and [function_names]. *)
Record trans_info := mk_tinfo {
  t_param_names : dict (list string);
  t_function_names : dict string }.

(** process_model.py:168-232 [_get_transition_info]. *)
Definition get_transition_info (md : model_dict) (l : labels) : result trans_info :=
  do infos <- mapM (fun f =>
      do fs <- dget_err (md_factors md) f;
      transition_of_spec (l_all l) (fs_transition fs)) (l_latent l);
  Ok (mk_tinfo (combine (l_latent l) (map fst infos)) (combine (l_latent l) (map snd infos))).

(** process_model.py:305-318 [fill_list]. *)
Definition fill_list {A} (short : list A) (fill : A) (len : nat) : result (list A) :=
  if length short <=? len then Ok (short ++ repeat fill (len - length short))
  else Err AssertionError.

Inductive purpose := PMeasurement | PAnchoring.

(** A row of the update_info DataFrame (process_model.py:251-275): its index
    (period, variable), the factor columns that are True, and its purpose. *)
Record urow := mk_urow {
  u_period : nat; u_var : string; u_true : list string; u_purpose : option purpose }.

Definition u_key (r : urow) : nat * string := (u_period r, u_var r).
Definition u_flag (r : urow) (f : string) : bool := smem f (u_true r).

Definition key_eqb (p : nat) (v : string) (r : urow) : bool :=
  (u_period r =? p) && String.eqb (u_var r) v.

(** [uinfo.loc[(p, v), col] = value]: sets the cell in the row with that key and
    appends a new row if there is none (process_model.py:263-269). *)
Definition loc_set (u : list urow) (p : nat) (v : string) (upd : urow -> urow)
  : list urow :=
  if existsb (key_eqb p v) u
  then map (fun r => if key_eqb p v r then upd r else r) u
  else u ++ [upd (mk_urow p v [] None)].

Definition set_true (f : string) (r : urow) : urow :=
  mk_urow (u_period r) (u_var r) (f :: u_true r) (u_purpose r).
Definition set_purpose (pu : purpose) (r : urow) : urow :=
  mk_urow (u_period r) (u_var r) (u_true r) (Some pu).

(** process_model.py:263-264 and 268-269 *)
Definition add_update (p : nat) (f v : string) (pu : purpose) (u : list urow) : list urow :=
  loc_set (loc_set u p v (set_true f)) p v (set_purpose pu).

(** process_model.py:267, also constraints.py:329 and process_data.py:86 *)
Definition anchoring_name (outcome factor : string) : string :=
  (outcome ++ "_" ++ factor)%string.

(** process_model.py:235-275 [_get_update_info]. Simplification: the DataFrame
    is the list of its rows. Columns of factors that are not latent factors
    (which pandas would add) are kept in [u_true] and never read. *)
Definition get_update_info (md : model_dict) (d : dims) (l : labels) (a : anchinfo)
  : result (list urow) :=
  do measurements <- mapM (fun f =>
      do fs <- dget_err (md_factors md) f;
      do filled <- fill_list (fs_measurements fs) [] (n_periods d);
      Ok (f, filled)) (l_latent l);
  Ok (fold_left (fun u period =>
        let u1 := fold_left (fun u fm =>
            fold_left (fun u meas => add_update period (fst fm) meas PMeasurement u)
                      (nth period (snd fm) []) u) measurements u in
        fold_left (fun u fo =>
            add_update period (fst fo) (anchoring_name (snd fo) (fst fo)) PAnchoring u)
          (a_outcomes a) u1)
      (l_periods l) []).

(** process_model.py:278-302 [_process_normalizations]: for each factor the
    filled lists of loadings and intercepts. *)
Record norms := mk_norms { nm_loadings : list (dict Q); nm_intercepts : list (dict Q) }.

Definition process_normalizations (md : model_dict) (d : dims) (l : labels)
  : result (dict norms) :=
  mapM (fun f =>
      do fs <- dget_err (md_factors md) f;
      let norminfo := get_default (fs_norm fs) (mk_norm None None) in
      do lo <- fill_list (get_default (ns_loadings norminfo) []) [] (n_periods d);
      do ic <- fill_list (get_default (ns_intercepts norminfo) []) [] (n_periods d);
      Ok (f, mk_norms lo ic)) (l_latent l).

(** process_model.py:321-326 [get_period_measurements]. *)
Definition get_period_measurements (u : list urow) (period : nat) : list string :=
  map u_var (filter (fun r => u_period r =? period) u).
