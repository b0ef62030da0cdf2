(** Model of skillmodels/visualize_factor_distributions.py.

    A figure is modelled by its traces and the titles of its axes. Colors, cameras and
    other properties of the layout are not modelled. Warnings (issued when a density
    cannot be estimated) are not modelled. *)
Require Import Reals QArith String Arith ZArith Bool List.
From Verif Require Import PyBase ModelSpec ProcessModel CheckModel ParamsIndex ProcessData RSum Kalman Likelihood
  TransitionFunctions DebugData Simulate Heatmap TransitionPlots.
Import ListNotations.
Open Scope string_scope.
Open Scope list_scope.
Open Scope nat_scope.

(** ** The data *)

(** The argument [states]: a DataFrame, a dictionary or a list of DataFrames. *)
Inductive states_arg :=
| OneTable (t : table) | TableDict (d : dict table) | TableList (l : list table).

(** The values of the column "scenario". *)
Inductive scenario := ScNone | ScName (s : string) | ScNumber (n : nat).

Definition scenario_eqb (a b : scenario) : bool :=
  match a, b with
  | ScNone, ScNone => true
  | ScName s, ScName s' => String.eqb s s'
  | ScNumber n, ScNumber n' => n =? n'
  | _, _ => false
  end.

(** The processed data: columns of equal length. The name [None] is a name that is no
    string. Simplification: the columns into which the index is turned are left out;
    factors are not called like them and not "scenario". *)
Record dist_data := mk_dist {
  dd_scenario : list (option scenario); dd_columns : list (option string * list (option R)) }.

(** visualize_factor_distributions.py:615-622 [_get_factors] *)
Definition get_factors (l : labels) (factors : option (list string)) (observed_factors : bool)
  : list string :=
  match factors with
  | Some fs => fs
  | None => if observed_factors then l_all l else l_latent l
  end.

(** visualize_factor_distributions.py:625-635 [_get_data_observed_factors]: the columns
    of the factors below each other, with the periods of the rows. The concatenation of
    columns with different names has no name. *)
Definition get_data_observed_factors (data : frame R) (factors : list string)
  : option (option string * list (Z * option R)) :=
  match filter (fun f => smem f (fr_columns data)) factors with
  | [] => None
  | f :: fs =>
      Some (if forallb (String.eqb f) fs then Some f else None,
            flat_map (fun f => map (fun r => (dr_period r, dr_cells r f)) (fr_rows data)) (f :: fs))
  end.

(** The rows of [df.query(f"period == {period}")]. Simplification: "period" is a column
    and not a level of the index. *)
Definition query_period (t : table) (period : nat) : result (list (string -> cell)) :=
  if smem "period" (tb_columns t)
  then Ok (filter (fun row => match row "period" with CInt s => s =? period | _ => false end) (tb_rows t))
  else Err OtherError.

(** [pd.concat([...], axis=1)] of frames whose rows are numbered from zero. *)
Definition pad {A} (n : nat) (l : list (option A)) : list (option A) := l ++ repeat None (n - length l).

(** visualize_factor_distributions.py:475-497 [_process_data] *)
Definition dist_process_data (states : states_arg) (period : nat) (factors : list string)
    (observed : option (option string * list (Z * option R))) : result dist_data :=
  let scenarios_of d := mapM (fun nt =>
      do rows <- query_period (snd nt) period;
      if forallb (fun f => smem f (tb_columns (snd nt))) factors
      then Ok (map (fun row => (fst nt, row)) rows)
      else Err KeyError) d in
  let stack (to_concat : list (list (scenario * (string -> cell)))) :=
      match to_concat with
      | [] => Err ValueError
      | _ => let rows := concat to_concat in
             Ok (mk_dist (map (fun sr => Some (fst sr)) rows)
                   (map (fun f => (Some f, map (fun sr => number_of (snd sr f)) rows)) factors))
      end in
  do data <- match states with
    | OneTable t =>
        match filter (fun f => smem f (tb_columns t)) factors with
        | [] => Err ValueError
        | fs => do rows <- query_period t period;
                Ok (mk_dist (map (fun _ => Some ScNone) rows)
                      (map (fun f => (Some f, map (fun row => number_of (row f)) rows)) fs))
        end
    | TableDict d =>
        do l <- scenarios_of (map (fun kv => (ScName (fst kv), snd kv)) d); stack l
    | TableList l =>
        do l <- scenarios_of (combine (map ScNumber (range (length l))) l); stack l
    end;
  match observed with
  | None => Ok data
  | Some (name, values) =>
      let values := map snd (filter (fun pv => Z.eqb (fst pv) (Z.of_nat period)) values) in
      let n := max (length (dd_scenario data)) (length values) in
      Ok (mk_dist (pad n (dd_scenario data))
            (map (fun c => (fst c, pad n (snd c))) (dd_columns data) ++ [(name, pad n values)]))
  end.

(** [df[factor]]. Simplification: if there are several columns with this name, the result
    is a DataFrame for which no density can be plotted; this is modelled as an error. *)
Definition dist_column (df : dist_data) (factor : string) : result (list (option R)) :=
  match filter (fun c => match fst c with Some s => String.eqb s factor | None => false end) (dd_columns df) with
  | [] => Err KeyError
  | [c] => Ok (snd c)
  | _ => Err OtherError
  end.

(** [df["scenario"].unique()] *)
Definition option_scenario_eqb (a b : option scenario) : bool :=
  match a, b with
  | Some a, Some b => scenario_eqb a b
  | None, None => true
  | _, _ => false
  end.
Definition unique_scenarios (df : dist_data) : list (option scenario) :=
  fold_left (fun acc s => if existsb (option_scenario_eqb s) acc then acc else acc ++ [s]) (dd_scenario df) [].

(** [column[df["scenario"] == s]]; nothing equals a missing value. *)
Definition where_scenario (df : dist_data) (s : option scenario) (column : list (option R)) : list (option R) :=
  map snd (filter (fun sv => match s, fst sv with Some a, Some b => scenario_eqb a b | _, _ => false end)
             (combine (dd_scenario df) column)).

(** ** Densities *)

Section Densities.
  (** [ff.create_distplot] of plotly with the arguments of the user: a figure or an error
      for the data and the labels of groups. *)
  Variable distplot : Type.
  Variable create_distplot : list (list (option R)) -> list (option scenario) -> result distplot.
  (** [gaussian_kde] of scipy: a density or an error (for example if there are missing
      values, or the covariance is singular). *)
  Variable gaussian_kde : list (option R) -> list (option R) -> result (R -> R -> R).
  Variables (nan neg_inf : R).
  Variable qr : qr_function.
  Variable custom : string -> dict R -> dict R -> list R -> result R.

  (** visualize_factor_distributions.py:205-208 (and 309-312, 422-427): filtered states by
      default. *)
  Definition default_states (md : model_dict) (data : frame R) (params : list (label * R))
      (states : option states_arg) : result states_arg :=
    match states with
    | Some s => Ok s
    | None =>
        do p <- process_model md;
        do fo <- get_filtered_states qr nan (model_tfunc nan neg_inf custom md (p_labels p)) md data params;
        Ok (OneTable (fo_anchored fo))
    end.

  (** The factors and the processed data that all three kinds of plots use
      (visualize_factor_distributions.py:205-214, 309-318, 422-433). *)
  Definition plot_input (md : model_dict) (data : frame R) (params : list (label * R)) (period : nat)
      (factors : option (list string)) (observed_factors : bool) (states : option states_arg)
    : result (list string * dist_data) :=
    do states <- default_states md data params states;
    do p <- process_model md;
    let factors := get_factors (p_labels p) factors observed_factors in
    do df <- dist_process_data states period factors (get_data_observed_factors data factors);
    Ok (factors, df).

  (** visualize_factor_distributions.py:147-244 [univariate_densities]. [None] is an empty
      figure. *)
  Definition univariate_densities (md : model_dict) (data : frame R) (params : list (label * R))
      (period : nat) (factors : option (list string)) (observed_factors : bool)
      (states : option states_arg) : result (dict (option distplot)) :=
    do input <- plot_input md data params period factors observed_factors states;
    let df := snd input in
    let scenarios := unique_scenarios df in
    mapM (fun fac =>
        do hist_data <- mapM (fun s => do c <- dist_column df fac; Ok (where_scenario df s c)) scenarios;
        Ok (fac, match create_distplot hist_data scenarios with Ok f => Some f | Err _ => None end))
      (fst input).

  (** visualize_factor_distributions.py:525-537 [_calculate_kde_for_3d]: two matrices of
      coordinates and a matrix of densities. *)
  Record mesh := mk_mesh { ms_x : list (list R); ms_y : list (list R); ms_z : list (list R) }.
  Definition calculate_kde (x y : list (option R)) (n_points : nat) : result mesh :=
    let number c := match c with Some x => CNum x | None => CNan end in
    let xs := linspace (to_number nan (pd_min (map number x))) (to_number nan (pd_max (map number x))) n_points in
    let ys := linspace (to_number nan (pd_min (map number y))) (to_number nan (pd_max (map number y))) n_points in
    do kernel <- gaussian_kde x y;
    Ok (mk_mesh (map (fun x => map (fun _ => x) ys) xs) (map (fun _ => ys) xs)
          (map (fun x => map (fun y => kernel x y) ys) xs)).

  (** visualize_factor_distributions.py:328-333 and 438-443: the pairs. The code puts them
      into a set: their order in the dictionary is arbitrary. *)
  Definition factor_pairs (factors : list string) : list (string * string) :=
    fold_left (fun acc pr => if existsb (pair_eqb pr) acc then acc else acc ++ [pr])
      (filter (fun pr => negb (String.eqb (fst pr) (snd pr))) (list_prod factors factors)) [].

  (** [go.Contour(x=x[:, 0], y=y[0, :], z=z)]: both coordinates are lists. *)
  Record contour := mk_contour { ct_x : list R; ct_y : list R; ct_z : list (list R) }.
  Record contour_figure := mk_contours { cf_traces : list contour; cf_xtitle : string; cf_ytitle : string }.

  Definition mesh_contour (m : mesh) : result contour :=
    do x <- mapM (fun row => nth_err row 0) (ms_x m);
    do y <- nth_err (ms_y m) 0;
    Ok (mk_contour x y (ms_z m)).

  (** visualize_factor_distributions.py:247-361 [bivariate_density_contours]: a contour for
      each scenario for which nothing fails; [n_colors] is the length of the list of
      colors. *)
  Definition bivariate_density_contours (n_colors : nat) (md : model_dict) (data : frame R)
      (params : list (label * R)) (period : nat) (factors : option (list string))
      (observed_factors : bool) (states : option states_arg) (n_points : nat)
    : result (list ((string * string) * contour_figure)) :=
    do input <- plot_input md data params period factors observed_factors states;
    let df := snd input in
    Ok (map (fun pr =>
      let traces := flat_map (fun is =>
          match (do cx <- dist_column df (fst pr);
                 do cy <- dist_column df (snd pr);
                 do m <- calculate_kde (where_scenario df (snd is) cx) (where_scenario df (snd is) cy) n_points;
                 do c <- mesh_contour m;
                 if fst is <? n_colors then Ok c else Err IndexError) with
          | Ok c => [c]
          | Err _ => []
          end) (enumerate (unique_scenarios df)) in
      (pr, mk_contours traces (fst pr) (snd pr))) (factor_pairs (fst input))).

  (** visualize_factor_distributions.py:364-472 [bivariate_density_surfaces]. A surface has
      matrices of coordinates. *)
  Record surface_figure := mk_surfaces { sf_traces : list mesh; sf_xtitle : string; sf_ytitle : string }.
  Definition bivariate_density_surfaces (md : model_dict) (data : frame R)
      (params : list (label * R)) (period : nat) (factors : option (list string))
      (observed_factors : bool) (states : option states_arg) (n_points : nat)
    : result (list ((string * string) * surface_figure)) :=
    do _ <- match states with Some (TableDict _) | Some (TableList _) => Err ValueError | _ => Ok tt end;
    do input <- plot_input md data params period factors observed_factors states;
    let df := snd input in
    Ok (map (fun pr =>
      let traces :=
          match (do cx <- dist_column df (fst pr);
                 do cy <- dist_column df (snd pr);
                 calculate_kde cx cy n_points) with
          | Ok m => [m]
          | Err _ => []
          end in
      (pr, mk_surfaces traces (fst pr) (snd pr))) (factor_pairs (fst input))).
End Densities.

Arguments mk_mesh ms_x ms_y ms_z : clear implicits.

(** ** Combination of the plots *)

(** What a cell of the combined figure shows. *)
Inductive dist_content (K C S : Type) :=
| KdeCell (traces : list K) | ContourCell (traces : list C) | SurfaceCell (trace : S) | EmptyCell.
Arguments KdeCell {K C S}. Arguments ContourCell {K C S}. Arguments SurfaceCell {K C S}. Arguments EmptyCell {K C S}.

Record dist_subplot (K C S : Type) := mk_dsub {
  ds_row : nat; ds_column : nat; ds_content : dist_content K C S; ds_legend : bool;
  ds_xtitle : option string; ds_ytitle : option string }.
Arguments mk_dsub {K C S}. Arguments ds_row {K C S}. Arguments ds_column {K C S}.
Arguments ds_content {K C S}. Arguments ds_legend {K C S}.
Arguments ds_xtitle {K C S}. Arguments ds_ytitle {K C S}.

(** visualize_factor_distributions.py:604-612 [_get_ordered_factors] *)
Definition get_ordered_factors (factor_order : order_arg) (factors : list string) : list string :=
  match factor_order with
  | DefaultOrder => factors
  | OneName s => [s]
  | Names l => l
  end.

(** A dictionary whose keys are pairs. *)
Definition pget {V} (d : list ((string * string) * V)) (key : string * string) : result V :=
  match find (fun kv => pair_eqb key (fst kv)) d with Some kv => Ok (snd kv) | None => Err KeyError end.

(** visualize_factor_distributions.py:18-144 [combine_distribution_plots], without
    [make_subplot_kwargs] and the arguments for the layout. Figures are given by their
    traces, those of contours with the titles of their axes. Titles of a cell are set
    with its traces. Second component: the mapping of the user after the call. *)
Definition combine_distribution_plots {K C S} (kde_plots : dict (list K))
    (contour_plots : list ((string * string) * (list C * (string * string))))
    (surface_plots : option (list ((string * string) * list S)))
    (factor_order : order_arg) (factor_mapping : option (dict string)) (sharey : bool)
  : result (list (dist_subplot K C S) * option (dict string)) :=
  let factors := dkeys kde_plots in
  let factor_names := process_factor_mapping factor_mapping factors in
  let ordered := get_ordered_factors factor_order factors in
  do g <- get_grid sharey (length ordered) (length ordered);
  do _ <- make_subplots g;
  do cells <- mapM (fun cf =>
      let col := fst (fst cf) in
      let fac1 := snd (fst cf) in
      let row := fst (snd cf) in
      let fac2 := snd (snd cf) in
      if col <? row then
        do plot <- pget contour_plots (fac1, fac2);
        match fst plot with
        | [] => Ok (mk_dsub row col (ContourCell []) false None None)
        | traces =>
            do xtitle <- dget_err factor_names (fst (snd plot));
            do ytitle <- dget_err factor_names (snd (snd plot));
            Ok (mk_dsub row col (ContourCell traces) false (Some xtitle) (Some ytitle))
        end
      else if col =? row then
        do traces <- dget_err kde_plots fac1;
        match traces with
        | [] => Ok (mk_dsub row col (KdeCell []) false None None)
        | traces =>
            do xtitle <- dget_err factor_names fac1;
            Ok (mk_dsub row col (KdeCell traces) (row =? 0) (Some xtitle) (Some "Density"))
        end
      else
        match surface_plots with
        | None => Ok (mk_dsub row col EmptyCell false None None)
        | Some surfaces =>
            do traces <- pget surfaces (fac1, fac2);
            do trace <- nth_err traces 0;
            Ok (mk_dsub row col (SurfaceCell trace) false (Some "") (Some ""))
        end)
    (list_prod (enumerate ordered) (enumerate ordered));
  Ok (cells, match factor_mapping with None => None | Some _ => Some factor_names end).
