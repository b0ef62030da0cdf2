(** Model of skillmodels/visualize_transition_equations.py and
    skillmodels/utils_plotting.py.

    A figure is modelled by its traces: the points of each line and its name. Colors,
    templates and other properties of the layout are not modelled, except for axis
    titles, the legend and the grid of subplots. *)
Require Import Reals QArith String Arith ZArith Bool List.
From Verif Require Import PyBase ModelSpec ProcessModel CheckModel ParamsIndex ParseParams ParamsVec
  ProcessData RSum Kalman Likelihood TransitionFunctions DebugData Simulate Heatmap.
Import ListNotations.
Open Scope string_scope.
Open Scope list_scope.
Open Scope nat_scope.

(** ** Numerical helpers *)

(** [np.linspace(lo, hi, n)] *)
Definition linspace (lo hi : R) (n : nat) : list R :=
  map (fun i => lo + INR i * ((hi - lo) / INR (n - 1)))%R (range n).

(** Sorting of numbers. *)
Fixpoint rinsert (x : R) (l : list R) : list R :=
  match l with
  | [] => [x]
  | y :: l' => if Rle_dec x y then x :: y :: l' else y :: rinsert x l'
  end.
Definition rsort (l : list R) : list R := fold_right rinsert [] l.

(** [Series.quantile(q)] (pandas, by contract): linear interpolation between the order
    statistics, NaN is skipped, NaN if nothing is left. *)
Definition pd_quantile (q : R) (l : list (option R)) : option R :=
  match rsort (dropna l) with
  | [] => None
  | x :: xs =>
      let h := (INR (length xs) * q)%R in
      let k := Z.to_nat (Int_part h) in
      let lo := nth k (x :: xs) 0%R in
      let hi := nth (S k) (x :: xs) lo in
      Some (lo + (h - INR k) * (hi - lo))%R
  end.

(** One row of the data of a plot: input, output, quantile. *)
Record point := mk_point { pt_x : R; pt_y : R; pt_quantile : option R }.

(** A line of a figure; the name is the quantile if there are several. *)
Record line := mk_line { ln_name : option R; ln_points : list (R * R) }.

Definition point_xy (r : point) : R * R := (pt_x r, pt_y r).

(** Distinct values in the order of their first appearance. *)
Fixpoint distinct (l : list R) : list R :=
  match l with
  | [] => []
  | x :: l' => x :: filter (fun y => if Req_EM_T x y then false else true) (distinct l')
  end.

(** [px.line(plot_data, y=..., x=..., color=color)]: one line for all rows or one line
    for each value of the column "quantile". *)
Definition px_line (color : bool) (rows : list point) : list line :=
  if color then
    map (fun q => mk_line (Some q)
           (map point_xy (filter (fun r => match pt_quantile r with
                                           | Some q' => if Req_EM_T q q' then true else false
                                           | None => false
                                           end) rows)))
      (distinct (flat_map (fun r => match pt_quantile r with Some q => [q] | None => [] end) rows))
  else [mk_line None (map point_xy rows)].

(** [.groupby(input).mean().reset_index()] *)
Definition rmean (l : list R) : R := (fold_right Rplus 0 l / INR (length l))%R.
Definition group_means (rows : list (R * R)) : list (R * R) :=
  map (fun x => (x, rmean (map snd (filter (fun r => if Req_EM_T x (fst r) then true else false) rows))))
      (rsort (distinct (map fst rows))).

(** ** The data *)

(** State ranges: for each factor the rows (period, minimum, maximum), where the period is
    the index. Simplification: periods are not duplicated. *)
Definition state_ranges := dict (list (nat * (option R * option R))).

(** [state_ranges[factor].loc[period]] (visualize_transition_equations.py:403-404, 450-451) *)
Definition state_range (ranges : state_ranges) (factor : string) (period : nat)
  : result (option R * option R) :=
  do rows <- dget_err ranges factor;
  match find (fun r => fst r =? period) rows with
  | Some r => Ok (snd r)
  | None => Err KeyError
  end.

(** The position of a name. *)
Fixpoint position_of (s : string) (l : list string) : option nat :=
  match l with
  | [] => None
  | x :: l' => if String.eqb s x then Some 0 else option_map S (position_of s l')
  end.

(** visualize_transition_equations.py:363-383: the observed factors of the period are
    merged to the states by id and period; other rows get NaN. [observed] is the array of
    the period. Simplification: observed factors are not called like a column of the
    states. *)
Definition merge_observed (states : table) (period : nat) (names : list string)
    (observed : list (list (option R))) : table :=
  mk_table (tb_columns states ++ names)
    (map (fun (row : string -> cell) c =>
       match position_of c names with
       | None => row c
       | Some j =>
           match row "id", row "period" with
           | CInt i, CInt t =>
               if t =? period
               then match nth_error observed i with
                    | Some r => match nth j r None with Some x => CNum x | None => CNan end
                    | None => CNan
                    end
               else CNan
           | _, _ => CNan
           end
       end) (tb_rows states)).

(** visualize_transition_equations.py:355-386 [_get_states_data]. The model has no value
    for a missing data set: filtering (line 172) would have failed before. *)
Definition get_states_data (p : processed) (period : nat) (data : frame R) (states : table)
  : result table :=
  match l_observed (p_labels p) with
  | [] => Ok states
  | observed_factors =>
      do ar <- process_data 1%R req data (p_labels p) (p_update p) (p_anch p) true;
      do observed <- nth_err (ar_observed ar) period;
      Ok (merge_observed states period observed_factors observed)
  end.

(** [states_data.query(f"period == {period}")[all_factors]] *)
Definition period_rows (states : table) (period : nat) (factors : list string)
  : result (list (string -> cell)) :=
  if forallb (fun f => smem f (tb_columns states)) factors
  then Ok (filter (fun row => match row "period" with CInt t => t =? period | _ => false end)
             (tb_rows states))
  else Err KeyError.

(** A column of numbers. *)
Definition values_of (rows : list (string -> cell)) (f : string) : list (option R) :=
  map (fun row => number_of (row f)) rows.

Section Plots.
  Variables nan neg_inf : R.
  (** What the transition function of the output factor (process_model.py:220-224) returns
      for one row of states. *)
  Variable transition_function : dict (list R) -> list R -> result R.
  Variables (all_factors : list string) (input_factor output_factor : string).
  Variable transition_params : dict (list R).

  (** A row of [input_data[all_factors]]: the input factor is varied, the other factors
      have fixed values. *)
  Definition input_row (x : R) (others : dict R) : list R :=
    map (fun f => if String.eqb f input_factor then x
                  else match dget others f with Some v => v | None => nan end) all_factors.

  Definition other_factors : list string :=
    filter (fun f => negb (String.eqb f input_factor)) all_factors.

  (** One line: visualize_transition_equations.py:407-418 and 455-464. *)
  Definition evaluate (grid : list R) (others : dict R) : result (list (R * R)) :=
    mapM (fun x => do y <- transition_function transition_params (input_row x others); Ok (x, y)) grid.

  (** visualize_transition_equations.py:389-421
      [_prepare_data_for_one_plot_fixed_quantile_2d]. *)
  Definition prepare_fixed_quantile (states_data : table) (ranges : state_ranges) (period : nat)
      (quantiles : list R) (n_points : nat) : result (list point) :=
    do rows <- period_rows states_data period all_factors;
    do range <- state_range ranges input_factor period;
    let grid := linspace (to_number nan (fst range)) (to_number nan (snd range)) n_points in
    do to_concat <- mapM (fun q =>
        if Rle_dec 0 q then
          if Rle_dec q 1 then
            let fixed := map (fun f => (f, to_number nan (pd_quantile q (values_of rows f)))) other_factors in
            do xy <- evaluate grid fixed;
            Ok (map (fun xy => mk_point (fst xy) (snd xy) (Some q)) xy)
          else Err ValueError
        else Err ValueError) quantiles;
    match to_concat with
    | [] => Err ValueError
    | _ => Ok (concat to_concat)
    end.

  (** visualize_transition_equations.py:433-467 [_prepare_data_for_one_plot_average_2d].
      [DataFrame.sample(n)] returns the rows at n random positions; ValueError if there
      are less than n rows. Simplification: the mean does not skip missing outputs. *)
  Variable sample : nat -> nat -> list nat.
  Definition prepare_average (states_data : table) (ranges : state_ranges) (period : nat)
      (n_points n_draws : nat) : result (list point) :=
    do rows <- period_rows states_data period all_factors;
    do draws <- (if n_draws <=? length rows
                 then Ok (map (fun k => nth k rows (fun _ => CNan)) (sample n_draws (length rows)))
                 else Err ValueError);
    do range <- state_range ranges input_factor period;
    let grid := linspace (to_number nan (fst range)) (to_number nan (snd range)) n_points in
    do to_concat <- mapM (fun draw =>
        evaluate grid (map (fun f => (f, to_number nan (number_of (draw f)))) other_factors)) draws;
    match to_concat with
    | [] => Err ValueError
    | _ => Ok (map (fun xy => mk_point (fst xy) (snd xy) None) (group_means (concat to_concat)))
    end.
End Plots.

(** The argument [quantiles_of_other_factors]: a number, a sequence or None. *)
Inductive quantiles_arg := OneQuantile (q : R) | Quantiles (l : list R) | NoQuantiles.

(** visualize_transition_equations.py:424-430 [_process_quantiles_of_other_factors] *)
Definition process_quantiles (a : quantiles_arg) : option (list R) :=
  match a with
  | OneQuantile q => Some [q]
  | Quantiles l => Some l
  | NoQuantiles => None
  end.

(** Plots by (input factor, output factor). *)
Definition plots (T : Type) := list ((string * string) * list T).

Section Dictionary.
  Variable qr : qr_function.
  Variables nan neg_inf : R.
  Variable custom : string -> dict R -> dict R -> list R -> result R.
  (** The random positions, by output factor and input factor. *)
  Variable sample : string -> string -> nat -> nat -> list nat.

  (** visualize_transition_equations.py:193-313 [_get_dictionary_with_plots]. *)
  Definition get_dictionary_with_plots (md : model_dict) (p : processed) (data : frame R)
      (params : list (label * R)) (states : table) (ranges : option state_ranges)
      (quantiles : option (list R)) (period n_points n_draws : nat) : result (plots line) :=
    let all_factors := l_all (p_labels p) in
    do states_data <- get_states_data p period data states;
    do params <- reindex_params nan params (params_index_of p);
    do ps <- parse_for 0%R 1%R ln p (map snd params) 1;
    do ranges <- match ranges with
                 | Some r => Ok r
                 | None => create_state_ranges states_data all_factors
                 end;
    mapM (fun oi =>
        let output_factor := fst oi in
        let input_factor := snd oi in
        do coeffs <- dget_err (ps_transition ps) output_factor;
        do coeffs <- nth_err coeffs period;
        let f := individual_function nan neg_inf custom md (p_labels p) output_factor in
        do rows <- match quantiles with
                   | Some qs =>
                       prepare_fixed_quantile nan f all_factors input_factor
                         [(output_factor, coeffs)] states_data ranges period qs n_points
                   | None =>
                       prepare_average nan f all_factors input_factor
                         [(output_factor, coeffs)] (sample output_factor input_factor)
                         states_data ranges period n_points n_draws
                   end;
        let color := match quantiles with Some qs => 1 <? length qs | None => false end in
        Ok ((input_factor, output_factor), px_line color rows))
      (list_prod (l_latent (p_labels p)) all_factors).

  (** visualize_transition_equations.py:120-190 [get_transition_plots]. *)
  Definition get_transition_plots (md : model_dict) (params : list (label * R)) (data : frame R)
      (period : nat) (ranges : option state_ranges) (quantiles : quantiles_arg)
      (n_points n_draws : nat) : result (plots line) :=
    do p <- process_model md;
    if last (l_periods (p_labels p)) 0 <=? period then Err ValueError
    else
      do fo <- get_filtered_states qr nan (model_tfunc nan neg_inf custom md (p_labels p)) md data params;
      get_dictionary_with_plots md p data params (fo_anchored fo) ranges (process_quantiles quantiles)
        period n_points n_draws.
End Dictionary.

(** ** Combination of the plots *)

(** The argument for an order: None, a string or a list. *)
Inductive order_arg := DefaultOrder | OneName (s : string) | Names (l : list string).

(** visualize_transition_equations.py:484-488 and 491-495: the names that occur in the
    keys. *)
Definition add_new (l : list string) (s : string) : list string := if smem s l then l else l ++ [s].
Definition key_names {T} (select : string * string -> string) (d : plots T) : list string :=
  fold_left (fun acc kv => add_new acc (select (fst kv))) d [].

(** visualize_transition_equations.py:482-498 [_process_orders]. *)
Definition process_order {T} (select : string * string -> string) (a : order_arg) (d : plots T)
  : list string :=
  match a with
  | DefaultOrder => key_names select d
  | OneName s => [s]
  | Names l => l
  end.

(** visualize_transition_equations.py:470-479 [_process_factor_mapping_trans]: the
    dictionary of the user is extended in place. *)
Definition process_factor_mapping (mapper : option (dict string)) (factors : list string)
  : dict string :=
  match mapper with
  | None => fold_left (fun d f => if smem f (dkeys d) then d else d ++ [(f, f)]) factors []
  | Some d => fold_left (fun d f => if smem f (dkeys d) then d else d ++ [(f, f)]) factors d
  end.

Definition pair_eqb (a b : string * string) : bool :=
  String.eqb (fst a) (fst b) && String.eqb (snd a) (snd b).

(** [plots_dict[key]], an empty figure for a missing key (88-91). *)
Definition get_plot {T} (d : plots T) (key : string * string) : list T :=
  match find (fun kv => pair_eqb key (fst kv)) d with Some kv => snd kv | None => [] end.

(** A subplot: its traces, whether they may appear in the legend, and the titles of its
    axes. Rows and columns are counted from 0. *)
Record subplot (T : Type) := mk_subplot {
  sp_row : nat; sp_column : nat; sp_traces : list T; sp_legend : bool;
  sp_xtitle : string; sp_ytitle : option string }.
Arguments mk_subplot {T}. Arguments sp_row {T}. Arguments sp_column {T}. Arguments sp_traces {T}.
Arguments sp_legend {T}. Arguments sp_xtitle {T}. Arguments sp_ytitle {T}.

(** utils_plotting.py:39-71 [get_make_subplot_kwargs]: the number of rows and columns,
    the horizontal and the vertical spacing ([None]: the default of plotly). A number of
    columns of zero raises ZeroDivisionError. *)
Record grid := mk_grid {
  gr_rows : nat; gr_columns : nat; gr_horizontal : R; gr_vertical : option R }.
Definition get_grid (sharey : bool) (n_columns n_rows : nat) : result grid :=
  if n_columns =? 0 then Err OtherError
  else
    let horizontal := (1 / (INR n_columns * 6))%R in
    Ok (mk_grid n_rows n_columns (if sharey then horizontal else 2 * horizontal)%R
          (if 1 <? n_rows then Some (1 / (INR n_rows - 1) / 4)%R else None)).

(** [make_subplots] (plotly, by contract) raises unless there are rows and columns and
    the spaces leave room for the subplots. *)
Definition make_subplots (g : grid) : result unit :=
  if (1 <=? gr_rows g) && (1 <=? gr_columns g)
     && (if Rle_dec 0 (gr_horizontal g) then true else false)
     && ((gr_columns g =? 1) || if Rle_dec (gr_horizontal g) (1 / (INR (gr_columns g) - 1)) then true else false)
     && match gr_vertical g with
        | None => true
        | Some v => (if Rle_dec 0 v then true else false)
                    && ((gr_rows g =? 1) || if Rle_dec v (1 / (INR (gr_rows g) - 1)) then true else false)
        end
  then Ok tt else Err ValueError.

(** visualize_transition_equations.py:22-117 [combine_transition_plots], without
    [make_subplot_kwargs] and the arguments for the layout. Second component: the mapping
    of the user after the call. *)
Definition combine_transition_plots {T} (plots_dict : plots T) (column_order row_order : order_arg)
    (factor_mapping : option (dict string)) (sharey : bool)
  : result (list (subplot T) * option (dict string)) :=
  let columns := process_order fst column_order plots_dict in
  let rows := process_order snd row_order plots_dict in
  do g <- get_grid sharey (length columns) (length rows);
  let mapping := process_factor_mapping factor_mapping (columns ++ rows) in
  do _ <- make_subplots g;
  do cells <- mapM (fun oirc =>
      let output_factor := fst (fst oirc) in
      let input_factor := snd (fst oirc) in
      let row := fst (snd oirc) in
      let col := snd (snd oirc) in
      do xtitle <- dget_err mapping input_factor;
      do ytitle <- (if col =? 0 then do y <- dget_err mapping output_factor; Ok (Some y)
                    else Ok None);
      Ok (mk_subplot row col (get_plot plots_dict (input_factor, output_factor))
            ((row =? 0) && (col =? 0)) xtitle ytitle))
    (combine (list_prod rows columns) (list_prod (range (length rows)) (range (length columns))));
  Ok (cells, match factor_mapping with None => None | Some _ => Some mapping end).

(** ** Layout of the combined figure *)

(** utils_plotting.py:4-36 [get_layout_kwargs]: values are those of the user, booleans,
    numbers, texts or dictionaries. *)
Inductive layout_value (U : Type) :=
| LUser (x : U) | LBool (b : bool) | LNumber (n : nat) | LText (s : string) | LDict (d : dict U).
Arguments LUser {U}. Arguments LBool {U}. Arguments LNumber {U}. Arguments LText {U}. Arguments LDict {U}.

Definition get_plot_layout {U} (layout_kwargs legend_kwargs title_kwargs : option (dict U))
    (showlegend : bool) (columns rows : option (list string)) : dict (layout_value U) :=
  let d := [("template", LText "simple_white"); ("xaxis_showgrid", LBool false);
            ("yaxis_showgrid", LBool false); ("legend", LDict []); ("title", LDict []);
            ("showlegend", LBool showlegend)] in
  let d := match rows with Some r => dset d "height" (LNumber (300 * length r)) | None => d end in
  let d := match columns with Some c => dset d "width" (LNumber (300 * length c)) | None => d end in
  let d := match title_kwargs with Some (kv :: t) => dset d "title" (LDict (kv :: t)) | _ => d end in
  let d := match legend_kwargs with Some (kv :: t) => dset d "legend" (LDict (kv :: t)) | _ => d end in
  match layout_kwargs with
  | Some k => dupdate d (map (fun kv => (fst kv, LUser (snd kv))) k)
  | None => d
  end.
