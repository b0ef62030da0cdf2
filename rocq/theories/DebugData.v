(** Model of skillmodels/process_debug_data.py and skillmodels/filtered_states.py. *)
Require Import Reals Qreals String Arith ZArith Bool List.
From Verif Require Import PyBase ModelSpec ProcessModel CheckModel ParamsIndex ParseParams ParamsVec
  ProcessData RSum Kalman Clipping Likelihood.
Import ListNotations.
Open Scope string_scope.
Open Scope list_scope.
Open Scope nat_scope.

(** A pandas DataFrame as far as it is needed here: the columns in their order and
    the rows. The index is not modelled. A cell holds a float, a non-negative
    integer, a string or NaN. *)
Inductive cell := CNum (x : R) | CInt (n : nat) | CText (s : string) | CNan.

Record table := mk_table { tb_columns : list string; tb_rows : list (string -> cell) }.

(** [pd.DataFrame(data=arr, columns=columns)] for an array with [n_rows] rows. A
    wrong number of columns raises. *)
Definition data_frame (n_rows n_cols : nat) (arr : nat -> nat -> cell) (columns : list string)
  : result table :=
  if length columns =? n_cols
  then Ok (mk_table columns
         (map (fun r c => match dget (combine columns (map (arr r) (range n_cols))) c with
                          | Some x => x
                          | None => CNan
                          end) (range n_rows)))
  else Err ShapeError.

(** [df[name] = values]: an existing column is overwritten, a new one is appended. *)
Definition set_column (name : string) (values : nat -> cell) (t : table) : table :=
  mk_table (if smem name (tb_columns t) then tb_columns t else tb_columns t ++ [name])
    (map (fun kr c => if String.eqb c name then values (fst kr) else snd kr c)
       (enumerate (tb_rows t))).

(** [df[name]] *)
Definition get_column (t : table) (name : string) : result (list cell) :=
  if smem name (tb_columns t) then Ok (map (fun r => r name) (tb_rows t)) else Err KeyError.

(** [pd.concat(to_concat)] of tables with the same columns. *)
Definition concat_tables (ts : list table) : result table :=
  match ts with
  | [] => Err ValueError
  | t :: _ => Ok (mk_table (tb_columns t) (flat_map tb_rows ts))
  end.

Section Debug.
  Variables (n_obs n_mixtures n_states : nat).

  (** process_debug_data.py:99-112 [_convert_state_array_to_df]. Row r of
      [arr.reshape(-1, n_states)] is individual r / n_mixtures and mixture element
      r mod n_mixtures; the flattened array of mixture numbers is laid out alike. *)
  Definition convert_state_array_to_df (arr : nat -> nat -> vec) (factor_names : list string)
    : result table :=
    do df <- data_frame (n_obs * n_mixtures) n_states
               (fun r f => CNum (arr (r / n_mixtures) (r mod n_mixtures) f)) factor_names;
    Ok (set_column "mixture" (fun r => CInt (r mod n_mixtures)) df).

  (** process_debug_data.py:81-96 [_create_post_update_states]. The arrays have one
      entry per row of update_info. *)
  Definition create_post_update_states (filtered_states : nat -> nat -> nat -> vec)
      (factors : list string) (u : list urow) : result table :=
    do to_concat <- mapM (fun ku =>
        do df <- convert_state_array_to_df (filtered_states (fst ku)) factors;
        let df := set_column "period" (fun _ => CInt (u_period (snd ku))) df in
        let df := set_column "id" (fun r => CInt r) df in
        Ok (set_column "measurement" (fun _ => CText (u_var (snd ku))) df)) (enumerate u);
    concat_tables to_concat.

  (** process_debug_data.py:125-127: [update_info.query(...).index[-1][1]]. *)
  Definition last_measurement (u : list urow) (period : nat) : result string :=
    match rev (filter (fun r => is_measurement_row r && (u_period r =? period)) u) with
    | [] => Err IndexError
    | r :: _ => Ok (u_var r)
    end.

  (** process_debug_data.py:123-130: the list [keep]. *)
  Definition keep_updates (u : list urow) : result (list nat) :=
    do flags <- mapM (fun ku =>
        do lm <- last_measurement u (u_period (snd ku));
        Ok (fst ku, String.eqb (u_var (snd ku)) lm)) (enumerate u);
    Ok (map fst (filter snd flags)).

  (** process_debug_data.py:115-141 [_create_filtered_states]. *)
  Definition create_filtered_states (filtered_states : nat -> nat -> nat -> vec)
      (log_mixture_weights : nat -> nat -> vec) (u : list urow) (factors : list string)
    : result table :=
    let agg_states k i f :=
      rsum n_mixtures (fun m => filtered_states k i m f * exp (log_mixture_weights k i m))%R in
    do keep <- keep_updates u;
    do to_concat <- mapM (fun pi =>
        do df <- data_frame n_obs n_states (fun i f => CNum (agg_states (snd pi) i f)) factors;
        let df := set_column "period" (fun _ => CInt (fst pi)) df in
        Ok (set_column "id" (fun r => CInt r) df)) (enumerate keep);
    concat_tables to_concat.

  (** process_debug_data.py:155-165 [_process_residuals], also 168-169
      [_process_residual_sds]. [residuals[0]] raises for an empty array. *)
  Definition process_residuals (residuals : nat -> nat -> nat -> option R) (u : list urow)
    : result table :=
    match u with
    | [] => Err IndexError
    | _ :: _ =>
        do to_concat <- mapM (fun ku =>
            do df <- data_frame (n_obs * n_mixtures) 1
                 (fun r _ => match residuals (fst ku) (r / n_mixtures) (r mod n_mixtures) with
                             | Some x => CNum x
                             | None => CNan
                             end) ["residual"];
            let df := set_column "mixture" (fun r => CInt (r mod n_mixtures)) df in
            let df := set_column "period" (fun _ => CInt (u_period (snd ku))) df in
            let df := set_column "id" (fun r => CInt r) df in
            Ok (set_column "measurement" (fun _ => CText (u_var (snd ku))) df)) (enumerate u);
        concat_tables to_concat
    end.

  (** process_debug_data.py:172-180 [_process_all_contributions] *)
  Definition process_all_contributions (all_contributions : nat -> vec) (u : list urow)
    : result table :=
    do to_concat <- mapM (fun ku =>
        do df <- data_frame n_obs 1 (fun i _ => CNum (all_contributions (fst ku) i)) ["contribution"];
        let df := set_column "measurement" (fun _ => CText (u_var (snd ku))) df in
        let df := set_column "period" (fun _ => CInt (u_period (snd ku))) df in
        Ok (set_column "id" (fun r => CInt r) df)) (enumerate u);
    concat_tables to_concat.
End Debug.

(** The sorted distinct values of a column of periods. *)
Fixpoint ninsert (x : nat) (l : list nat) : list nat :=
  match l with
  | [] => [x]
  | y :: l' => if x =? y then y :: l' else if x <? y then x :: y :: l' else y :: ninsert x l'
  end.
Definition nsort_unique (l : list nat) : list nat := fold_right ninsert [] l.

(** The column "period"; only non-negative integers are modelled. *)
Definition period_column (t : table) : result (list nat) :=
  do cells <- get_column t "period";
  mapM (fun c => match c with CInt n => Ok n | _ => Err OtherError end) cells.

(** min and max of pandas: NaN is skipped, NaN if nothing is left. *)
Definition number_of (c : cell) : option R :=
  match c with CNum x => Some x | CInt n => Some (INR n) | _ => None end.
Definition skip_nan (f : R -> R -> R) (a b : option R) : option R :=
  match a, b with
  | Some x, Some y => Some (f x y)
  | Some x, None => Some x
  | None, _ => b
  end.
Definition pd_min (l : list cell) : option R := fold_right (fun c => skip_nan Rmin (number_of c)) None l.
Definition pd_max (l : list cell) : option R := fold_right (fun c => skip_nan Rmax (number_of c)) None l.

(** [df.groupby("period")] restricted to one group and one column. The grouping column
    itself is not a column of the result. Strings in the column of a factor are not
    modelled. *)
Definition group (t : table) (periods : list nat) (period : nat) (name : string) : list cell :=
  map (fun pr => snd pr name) (filter (fun pr => fst pr =? period) (combine periods (tb_rows t))).

(** process_debug_data.py:144-152 [create_state_ranges]: for each factor the rows
    (period, minimum, maximum). *)
Definition create_state_ranges (filtered_states : table) (factors : list string)
  : result (dict (list (nat * (option R * option R)))) :=
  do periods <- period_column filtered_states;
  mapM (fun factor =>
    if smem factor (tb_columns filtered_states) && negb (String.eqb factor "period")
    then Ok (factor, map (fun t => (t, (pd_min (group filtered_states periods t factor),
                                        pd_max (group filtered_states periods t factor))))
                       (nsort_unique periods))
    else Err KeyError) factors.

Record debug_tables := mk_tables {
  dt_post_update_states : table; dt_filtered_states : table;
  dt_state_ranges : dict (list (nat * (option R * option R)));
  dt_residuals : table; dt_residual_sds : table; dt_all_contributions : table;
  dt_value : R; dt_contributions : vec }.

(** process_debug_data.py:5-78 [process_debug_data]. The shapes of the arrays are those
    of likelihood_function.py:284-299. *)
Definition process_debug_data (p : processed) (n_obs : nat) (out : output) (dbg : debug_output)
  : result debug_tables :=
  let u := p_update p in
  let factors := l_latent (p_labels p) in
  let nm := n_mixtures (p_dims p) in
  let ns := n_latent (p_dims p) in
  do post <- create_post_update_states n_obs nm ns (do_filtered_states dbg) factors u;
  do filtered <- create_filtered_states n_obs nm ns (do_filtered_states dbg) (do_logw dbg) u factors;
  do ranges <- create_state_ranges filtered factors;
  do residuals <- process_residuals n_obs nm (do_residuals dbg) u;
  do residual_sds <- process_residuals n_obs nm (do_residual_sds dbg) u;
  do contributions <- process_all_contributions n_obs (do_all_contributions dbg) u;
  Ok (mk_tables post filtered ranges residuals residual_sds contributions (out_value out)
        (out_contributions out)).

(** Arithmetic of a column with a column of floats. *)
Definition affine_cell (constant scaling : R) (c : cell) : result cell :=
  match c with
  | CNum x => Ok (CNum (constant + x * scaling))
  | CInt n => Ok (CNum (constant + INR n * scaling))
  | CNan => Ok CNan
  | CText _ => Err OtherError
  end.

(** filtered_states.py:43-93 [anchor_states_df] *)
Definition anchor_states_df (states_df : table) (md : model_dict) (params : list (label * R))
  : result table :=
  do p <- process_model md;
  do rows <- loc_rows params (params_index_of p);
  do ps <- parse_for 0%R 1%R ln p (map snd rows) 1;
  let n_latent := n_latent (p_dims p) in
  let scaling_factors := map (firstn n_latent) (ps_scaling ps) in
  let constants := map (firstn n_latent) (ps_constants ps) in
  do period_arr <- period_column states_df;
  do scaling_arr <- mapM (nth_err scaling_factors) period_arr;
  do constants_arr <- mapM (nth_err constants) period_arr;
  fold_left (fun acc pf =>
      do out <- acc;
      do column <- get_column states_df (snd pf);
      do values <- mapM (fun rc =>
          do c <- nth_err (nth (fst rc) constants_arr []) (fst pf);
          do s <- nth_err (nth (fst rc) scaling_arr []) (fst pf);
          affine_cell c s (snd rc)) (enumerate column);
      Ok (set_column (snd pf) (fun r => nth r values CNan) out))
    (enumerate (l_latent (p_labels p))) (Ok states_df).

(** likelihood_function.py:131-148: debug_loglike with the processing of the debug
    data, and filtered_states.py:12-40 [get_filtered_states]. *)
Section FilteredStates.
  Variable qr : qr_function.
  Variable nan : R.
  Variable tfunc : dict (list R) -> vec -> vec.

  Definition debug_loglike (md : model_dict) (df : frame R)
    : result (list (label * R) -> result debug_tables) :=
    do p <- process_model md;
    do ar <- process_data 1%R req df (p_labels p) (p_update p) (p_anch p) true;
    Ok (fun params =>
          do v <- get_params_vec params (params_index_of p);
          do out <- log_likelihood qr nan tfunc p ar true v;
          match out_debug out with
          | Some dbg => process_debug_data p (length (nth 0 (ar_controls ar) [])) out dbg
          | None => Err OtherError    (* unreachable: debug = true *)
          end).

  Record filtered_output := mk_filtered {
    fo_anchored : table; fo_anchored_ranges : dict (list (nat * (option R * option R)));
    fo_unanchored : table; fo_unanchored_ranges : dict (list (nat * (option R * option R))) }.

  Definition get_filtered_states (md : model_dict) (df : frame R) (params : list (label * R))
    : result filtered_output :=
    do f <- debug_loglike md df;
    do p <- process_model md;
    do params <- loc_rows params (params_index_of p);
    do debug_data <- f params;
    let unanchored := dt_filtered_states debug_data in
    do anchored <- anchor_states_df unanchored md params;
    do anchored_ranges <- create_state_ranges anchored (l_latent (p_labels p));
    Ok (mk_filtered anchored anchored_ranges unanchored (dt_state_ranges debug_data)).
End FilteredStates.
