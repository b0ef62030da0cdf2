(** Model of skillmodels/correlation_heatmap.py. *)
Require Import Reals String Arith ZArith Bool List.
From Verif Require Import PyBase ModelSpec ProcessModel CheckModel ParamsIndex ParseParams ParamsVec
  ProcessData.
Import ListNotations.
Open Scope string_scope.
Open Scope list_scope.
Open Scope nat_scope.

(** ** The data behind the heatmap *)

(** A pandas DataFrame with float columns: its columns in their order. The index is
    not modelled: where frames are put side by side, they are aligned by position
    (correlation_heatmap.py:337, 445 and 568 after [reset_index]) or have the same
    index (413 and 535). [None] is NaN. *)
Definition columns := list (string * list (option R)).

(** The result of [df.corr()]. *)
Record corr_df := mk_corr {
  co_index : list string; co_columns : list string; co_cells : list (list (option R)) }.

Fixpoint rsum_list (l : list R) : R :=
  match l with
  | [] => 0%R
  | x :: l' => (x + rsum_list l')%R
  end.

(** [Series.mean()]: skips NaN, NaN if nothing is left. *)
Definition mean (l : list (option R)) : option R :=
  match dropna l with
  | [] => None
  | xs => Some (rsum_list xs / INR (length xs))%R
  end.

(** [Series.std()]: with the denominator n - 1, NaN for fewer than two values. *)
Definition std (l : list (option R)) : option R :=
  match dropna l, mean l with
  | (_ :: _ :: _) as xs, Some m =>
      Some (sqrt (rsum_list (map (fun x => (x - m) * (x - m))%R xs) / (INR (length xs) - 1)))
  | _, _ => None
  end.

(** Values of an observation on which both variables are known. *)
Fixpoint complete_pairs (a b : list (option R)) : list (R * R) :=
  match a, b with
  | x :: a', y :: b' =>
      match x, y with
      | Some x, Some y => (x, y) :: complete_pairs a' b'
      | _, _ => complete_pairs a' b'
      end
  | _, _ => []
  end.

(** Sum of the products of the deviations from the means. *)
Definition codeviation (xs ys : list R) : R :=
  let mx := (rsum_list xs / INR (length xs))%R in
  let my := (rsum_list ys / INR (length ys))%R in
  rsum_list (map (fun p => (fst p - mx) * (snd p - my))%R (combine xs ys)).

(** One cell of [DataFrame.corr()] (pandas, by contract): the Pearson correlation of
    the complete observations; NaN if there are none or one variable is constant. *)
Definition pearson (a b : list (option R)) : option R :=
  let ps := complete_pairs a b in
  let xs := map fst ps in
  let ys := map snd ps in
  let divisor := sqrt (codeviation xs xs * codeviation ys ys) in
  match ps with
  | [] => None
  | _ => if Req_EM_T divisor 0 then None else Some (codeviation xs ys / divisor)%R
  end.

(** [df.corr()] *)
Definition corr (df : columns) : corr_df :=
  mk_corr (map fst df) (map fst df)
          (map (fun a => map (fun b => pearson (snd a) (snd b)) df) df).

(** Numbers as they occur in intermediate results. The sign of infinite numbers is
    not modelled: an infinite number stays infinite or becomes NaN, and
    [DataFrame.corr()] treats both as missing. *)
Inductive num := Missing | Infinite | Finite (x : R).

(** x / y *)
Definition fdiv (x y : R) : num :=
  if Req_EM_T y 0 then if Req_EM_T x 0 then Missing else Infinite else Finite (x / y).

(** (column - shift) / scale *)
Definition rescale (shift scale : option R) (col : list (option R)) : list num :=
  map (fun x => match x, shift, scale with
                | Some x, Some m, Some s => fdiv (x - m)%R s
                | _, _, _ => Missing
                end) col.

Definition is_infinite (x : num) : bool := match x with Infinite => true | _ => false end.
Definition finite (x : num) : option R := match x with Finite r => Some r | _ => None end.

(** [df.mean(axis=1)] of a frame with [n_rows] rows. *)
Definition row_means (n_rows : nat) (cols : list (list num)) : list (option R) :=
  map (fun i =>
         let row := map (fun c => nth i c Missing) cols in
         if existsb is_infinite row then None else mean (map finite row)) (range n_rows).

(** [update_info.loc[period].reset_index()] (correlation_heatmap.py:296, 397, 508) *)
Definition period_info (u : list urow) (period : nat) : result (list urow) :=
  match filter (fun r => u_period r =? period) u with
  | [] => Err KeyError
  | info => Ok info
  end.

(** [period_info.query(f"{fac} == True and purpose == 'measurement'")["variable"].to_list()]
    (correlation_heatmap.py:300-302, 400-402, 518-520). Simplification: the names of
    factors can be used in a query, i.e. they are Python identifiers. *)
Definition factor_measurements (info : list urow) (fac : string) : list string :=
  map u_var (filter (fun r => u_flag r fac &&
    match u_purpose r with Some PMeasurement => true | _ => false end) info).

(** [data.query(f"period=={period}")[name]] for a balanced data set with columns
    [cols]. *)
Definition get_col (cols : list string) (rows : list (prow R)) (period : nat) (name : string)
  : result (list (option R)) :=
  if smem name cols then Ok (column name (in_period period rows)) else Err KeyError.

Definition get_named_col (cols : list string) (rows : list (prow R)) (period : nat) (name : string)
  : result (string * list (option R)) :=
  do c <- get_col cols rows period name; Ok (name, c).

Section SinglePeriod.
  Variables (cols : list string) (rows : list (prow R)) (u : list urow).
  Variables (latent_factors observed_factors : list string).

  (** correlation_heatmap.py:277-306 [_get_measurement_data_for_single_period]. *)
  Definition measurement_data_single (period : nat) : result columns :=
    do info <- period_info u period;
    mapM (get_named_col cols rows period)
         (flat_map (factor_measurements info) latent_factors ++ observed_factors).

  (** [pd.concat(to_concat, axis=1)] raises for an empty list. *)
  Definition concat_series (l : columns) : result columns :=
    match l with [] => Err ValueError | _ => Ok l end.

  (** correlation_heatmap.py:378-414 [_get_quasi_factor_scores_data_for_single_period]. *)
  Definition quasi_scores_single (period : nat) : result columns :=
    do info <- period_info u period;
    do latent <- mapM (fun factor =>
        do df <- mapM (get_col cols rows period) (factor_measurements info factor);
        let df := map (fun c => rescale (mean c) (std c) c) df in
        Ok (factor, row_means (length (in_period period rows)) df)) latent_factors;
    do observed <- mapM (get_named_col cols rows period) observed_factors;
    concat_series (latent ++ observed).

  (** correlation_heatmap.py:487-536 [_get_factor_scores_data_for_single_period].
      Simplification: the params have no duplicate index entries and no NaN. *)
  Definition scores_single (params : list (label * R)) (period : nat) : result columns :=
    do info <- period_info u period;
    let params := filter (fun row => lb_period (fst row) =? period) params in
    let of_cat c := filter (fun row => cat_eqb (lb_cat (fst row)) c) params in
    do loadings <- match of_cat CLoadings with [] => Err KeyError | l => Ok l end;
    do controls <- match of_cat CControls with [] => Err KeyError | l => Ok l end;
    let intercepts := filter (fun row => String.eqb (lb_name2 (fst row)) "constant") controls in
    (* 514-515: more than one loading that is not zero *)
    let loadings_count m :=
      length (filter (fun row => String.eqb (lb_name1 (fst row)) m &&
                                 if Req_EM_T (snd row) 0 then false else true) loadings) in
    do latent <- mapM (fun factor =>
        let ms := filter (fun m => negb (1 <? loadings_count m)) (factor_measurements info factor) in
        do df <- mapM (fun m => do c <- get_col cols rows period m; Ok (m, c)) ms;
        do df <- mapM (fun mc =>
            match find (fun row => String.eqb (lb_name1 (fst row)) (fst mc)) intercepts,
                  find (fun row => String.eqb (lb_name1 (fst row)) (fst mc) &&
                                   String.eqb (lb_name2 (fst row)) factor) loadings with
            | Some intercept, Some loading =>
                Ok (rescale (Some (snd intercept)) (Some (snd loading)) (snd mc))
            | _, _ => Err KeyError
            end) df;
        Ok (factor, row_means (length (in_period period rows)) df)) latent_factors;
    do observed <- mapM (get_named_col cols rows period) observed_factors;
    concat_series (latent ++ observed).
End SinglePeriod.

(** [.add_suffix(f", {period}")] *)
Definition add_suffix (period : nat) (df : columns) : columns :=
  map (fun c => (fst c ++ ", " ++ str_nat period, snd c)%string) df.

(** [pd.concat(to_concat, axis=1)] of frames with a RangeIndex: shorter frames are
    filled up with NaN. ValueError for an empty list. *)
Definition concat_frames (dfs : list columns) : result columns :=
  match dfs with
  | [] => Err ValueError
  | _ =>
      let all := flat_map (fun df => df) dfs in
      let n := list_max (map (fun c => length (snd c)) all) in
      Ok (map (fun c => (fst c, snd c ++ repeat None (n - length (snd c)))) all)
  end.

(** correlation_heatmap.py:245-274 and 309-338 [_get_measurement_data] and
    [_get_measurement_data_for_multiple_periods]; 341-375 and 417-446; 449-484 and
    539-569: the same with other functions for a single period. *)
Definition stack_periods (single : nat -> result columns) (periods : list nat) : result columns :=
  match periods with
  | [period] => single period
  | _ =>
      do to_concat <- mapM (fun period => do df <- single period; Ok (add_suffix period df)) periods;
      concat_frames to_concat
  end.

(** The argument [factors]: None, a string or a list. *)
Inductive factors_arg := AllFactors | OneFactor (s : string) | ListFactors (l : list string).

(** correlation_heatmap.py:572-592 [_process_factors]. An unknown string leaves the
    variables unassigned: UnboundLocalError, a NameError. *)
Definition process_factors (l : labels) (factors : factors_arg)
  : result (list string * list string) :=
  let all := Ok (l_latent l, l_observed l) in
  match factors with
  | AllFactors => all
  | OneFactor s =>
      if String.eqb s "" then all
      else if smem s (l_latent l) then Ok ([s], [])
      else if smem s (l_observed l) then Ok ([], [s])
      else Err NameError
  | ListFactors [] => all
  | ListFactors fs =>
      Ok (filter (fun f => smem f (l_latent l)) fs,
          filter (fun f => negb (smem f (l_latent l)) && smem f (l_observed l)) fs)
  end.

(** The argument [periods]: None, a number or a list. Simplification: periods are
    non-negative integers; there are no others in the update info. *)
Inductive periods_arg := AllPeriods | OnePeriod (t : nat) | ListPeriods (l : list nat).

(** correlation_heatmap.py:595-601 [_process_periods]. *)
Definition process_periods (periods : periods_arg) (d : dims) : list nat :=
  match periods with
  | AllPeriods => range (n_periods d)
  | OnePeriod t => [t]
  | ListPeriods l => l
  end.

(** correlation_heatmap.py:114-143 [get_measurements_corr]. *)
Definition get_measurements_corr (data : frame R) (md : model_dict) (factors : factors_arg)
    (periods : periods_arg) : result corr_df :=
  do model <- process_model md;
  let periods := process_periods periods (p_dims model) in
  do rows <- pre_process_data data periods;
  do fs <- process_factors (p_labels model) factors;
  do df <- stack_periods (measurement_data_single (fr_columns data) rows (p_update model)
                            (fst fs) (snd fs)) periods;
  Ok (corr df).

(** correlation_heatmap.py:146-179 [get_quasi_scores_corr]. *)
Definition get_quasi_scores_corr (data : frame R) (md : model_dict) (factors : factors_arg)
    (periods : periods_arg) : result corr_df :=
  do model <- process_model md;
  let periods := process_periods periods (p_dims model) in
  do rows <- pre_process_data data periods;
  do fs <- process_factors (p_labels model) factors;
  do df <- stack_periods (quasi_scores_single (fr_columns data) rows (p_update model)
                            (fst fs) (snd fs)) periods;
  Ok (corr df).

(** correlation_heatmap.py:182-215 [get_scores_corr]. *)
Definition get_scores_corr (data : frame R) (params : list (label * R)) (md : model_dict)
    (factors : factors_arg) (periods : periods_arg) : result corr_df :=
  do model <- process_model md;
  let periods := process_periods periods (p_dims model) in
  do rows <- pre_process_data data periods;
  do fs <- process_factors (p_labels model) factors;
  (* 210: params.loc[["controls", "loadings"]] *)
  let has c := existsb (fun row => cat_eqb (lb_cat (fst row)) c) params in
  do params <- (if has CControls && has CLoadings
                then Ok (filter (fun row => cat_eqb (lb_cat (fst row)) CControls ||
                                            cat_eqb (lb_cat (fst row)) CLoadings) params)
                else Err KeyError);
  do df <- stack_periods (scores_single (fr_columns data) rows (p_update model)
                            (fst fs) (snd fs) params) periods;
  Ok (corr df).

(** ** The figure *)

(** correlation_heatmap.py:234-242 [_get_mask]: is cell (i, j) shown? *)
Definition get_mask (show_upper_triangle show_diagonal : bool) (i j : nat) : bool :=
  (j <? i) || (show_upper_triangle && (i <? j)) || (show_diagonal && (i =? j)).

(** [l[keep]] for an array of booleans. *)
Definition select {A} (keep : list bool) (l : list A) : list A :=
  map snd (filter fst (combine keep l)).

Definition notnull (x : option R) : bool := match x with Some _ => true | None => false end.

(** Column j of a matrix. *)
Definition mcolumn {A} (j : nat) (m : list (list A)) : list (option A) :=
  map (fun row => nth_error row j) m.

(** One annotation of the figure (correlation_heatmap.py:686-700); [None] stands for
    the text of something that is not a single cell. The constant entries "xref",
    "yref" and "showarrow" are left out. *)
Record annotation (U : Type) := mk_annotation {
  an_text : option string; an_x : string; an_y : string; an_color : U; an_size : U; an_angle : U }.
Arguments mk_annotation {U}. Arguments an_text {U}. Arguments an_x {U}. Arguments an_y {U}.
Arguments an_color {U}. Arguments an_size {U}. Arguments an_angle {U}.

(** Values of keyword arguments. [U] is the type of the values of the user. *)
Inductive kwarg (U : Type) :=
| KUser (x : U)
| KNumber (x : option R)
| KText (s : string)
| KBool (b : bool)
| KAnnotations (l : list (annotation U))
| KAxis (tickangle color size : U).
Arguments KUser {U}. Arguments KNumber {U}. Arguments KText {U}. Arguments KBool {U}.
Arguments KAnnotations {U}. Arguments KAxis {U}.

(** [d.update(d')] *)
Definition dset {V} (d : dict V) (k : string) (v : V) : dict V :=
  if smem k (dkeys d) then map (fun kv => if String.eqb k (fst kv) then (k, v) else kv) d
  else d ++ [(k, v)].
Definition dupdate {V} (d d' : dict V) : dict V :=
  fold_left (fun d kv => dset d (fst kv) (snd kv)) d' d.

(** The argument of an axis option: a pair or a dictionary with keys x and y
    (correlation_heatmap.py:741-744). Longer and shorter tuples are not modelled. *)
Record axes (U : Type) := mk_axes { ax_x : U; ax_y : U }.
Arguments mk_axes {U}. Arguments ax_x {U}. Arguments ax_y {U}.

(** The figure: the arguments of go.Heatmap and of update_layout. *)
Record figure (U : Type) := mk_figure {
  fg_z : list (list (option R)); fg_x : list string; fg_y : list string;
  fg_heatmap : dict (kwarg U); fg_layout : dict (kwarg U) }.
Arguments mk_figure {U}. Arguments fg_z {U}. Arguments fg_x {U}. Arguments fg_y {U}.
Arguments fg_heatmap {U}. Arguments fg_layout {U}.

(** The arguments of the plotting function that matter for its content. *)
Record heatmap_args (U : Type) := mk_args {
  ha_heatmap_kwargs : dict U; ha_layout_kwargs : dict U;
  ha_zmax : option R; ha_zmin : option R; ha_zmid : option R;
  ha_colorscale : U; ha_show_color_bar : bool;
  ha_show_diagonal : bool; ha_show_upper_triangle : bool; ha_trim : bool;
  ha_annotate : bool; ha_fontsize : U; ha_color : U; ha_angle : U;
  ha_tick_fontsize : axes U; ha_tick_angle : axes U; ha_tick_color : axes U }.
Arguments mk_args {U}.
Arguments ha_heatmap_kwargs {U}. Arguments ha_layout_kwargs {U}. Arguments ha_zmax {U}.
Arguments ha_zmin {U}. Arguments ha_zmid {U}. Arguments ha_colorscale {U}.
Arguments ha_show_color_bar {U}. Arguments ha_show_diagonal {U}.
Arguments ha_show_upper_triangle {U}. Arguments ha_trim {U}. Arguments ha_annotate {U}.
Arguments ha_fontsize {U}. Arguments ha_color {U}. Arguments ha_angle {U}.
Arguments ha_tick_fontsize {U}. Arguments ha_tick_angle {U}. Arguments ha_tick_color {U}.

Section Plot.
  Variable U : Type.
  (** [np.round(x, rounding)] and [str(x)] for a float that is not NaN. *)
  Variable round : R -> R.
  Variable show : R -> string.

  (** correlation_heatmap.py:218-231 [_process_corr_data_for_plotting]. *)
  Definition process_corr_data (c : corr_df) (show_upper_triangle show_diagonal trim_heatmap : bool)
    : corr_df :=
    let mask := map (fun ir => map (fun jx => get_mask show_upper_triangle show_diagonal (fst ir) (fst jx))
                                   (enumerate (snd ir))) (enumerate (co_cells c)) in
    let cells := map (fun mr => map (fun mx : bool * option R =>
                       if fst mx then option_map round (snd mx) else None)
                       (combine (fst mr) (snd mr))) (combine mask (co_cells c)) in
    if trim_heatmap then
      let keeprows := map (fun mr => existsb (fun b => b) (fst mr) && existsb notnull (snd mr))
                          (combine mask cells) in
      let mask := select keeprows mask in
      let cells := select keeprows cells in
      let keepcols := map (fun j =>
            existsb (fun b => match b with Some true => true | _ => false end) (mcolumn j mask) &&
            existsb (fun x => match x with Some x => notnull x | None => false end) (mcolumn j cells))
          (range (length (co_columns c))) in
      mk_corr (select keeprows (co_index c)) (select keepcols (co_columns c))
              (map (select keepcols) cells)
    else mk_corr (co_index c) (co_columns c) cells.

  (** [np.abs(corr.to_numpy())[np.tril_indices_from(corr, k=-1)].max()]
      (correlation_heatmap.py:724): ValueError if there is no entry, NaN if one is
      NaN. *)
  Definition lower_entries (m : list (list (option R))) : list (option R) :=
    flat_map (fun ir => firstn (fst ir) (snd ir)) (enumerate m).

  Fixpoint np_max (l : list (option R)) : result (option R) :=
    match l with
    | [] => Err ValueError
    | [x] => Ok x
    | x :: l' =>
        do y <- np_max l';
        Ok (match x, y with Some x, Some y => Some (Rmax x y) | _, _ => None end)
    end.

  (** correlation_heatmap.py:705-738 [_get_heatmap_kwargs]. *)
  Definition get_heatmap_kwargs (c : corr_df) (a : heatmap_args U) : result (dict (kwarg U)) :=
    do zmax <- match ha_zmax a with
               | Some z => Ok (Some z)
               | None => np_max (map (option_map Rabs) (lower_entries (co_cells c)))
               end;
    let zmin := match ha_zmin a with Some z => Some z | None => option_map Ropp zmax end in
    let zmid := match ha_zmid a with Some z => z | None => 0%R end in
    Ok (dupdate [("colorscale", KUser (ha_colorscale a)); ("showscale", KBool (ha_show_color_bar a));
                 ("zmin", KNumber zmin); ("zmax", KNumber zmax); ("zmid", KNumber (Some zmid))]
          (map (fun kv => (fst kv, KUser (snd kv))) (ha_heatmap_kwargs a))).

  (** [df.loc[m, n]]: the cells with these labels; more than one if labels are not
      unique. *)
  Definition loc_cells (c : corr_df) (m n : string) : list (option R) :=
    flat_map (fun ir => if String.eqb m (fst ir)
                        then map snd (filter (fun jx => String.eqb n (fst jx))
                                             (combine (co_columns c) (snd ir)))
                        else []) (combine (co_index c) (co_cells c)).

  (** [str(df.loc[m, n]).replace("nan", "")] *)
  Definition cell_text (l : list (option R)) : option string :=
    match l with
    | [Some x] => Some (show x)
    | [None] => Some ""
    | _ => None
    end.

  (** correlation_heatmap.py:677-702 [_get_annotations]. *)
  Definition get_annotations (c : corr_df) (a : heatmap_args U) : dict (kwarg U) :=
    if ha_annotate a then
      [("annotations", KAnnotations
          (flat_map (fun n => map (fun m =>
               mk_annotation (cell_text (loc_cells c m n)) n m
                             (ha_color a) (ha_fontsize a) (ha_angle a))
             (rev (co_index c))) (rev (co_columns c))))]
    else [].

  (** correlation_heatmap.py:658-674 [_get_axes_ticks_kwargs]. *)
  Definition get_axes_ticks_kwargs (a : heatmap_args U) : dict (kwarg U) :=
    [("xaxis", KAxis (ax_x (ha_tick_angle a)) (ax_x (ha_tick_color a)) (ax_x (ha_tick_fontsize a)));
     ("yaxis", KAxis (ax_y (ha_tick_angle a)) (ax_y (ha_tick_color a)) (ax_y (ha_tick_fontsize a)))].

  (** correlation_heatmap.py:604-655 [_get_layout_kwargs]. *)
  Definition get_layout_kwargs (c : corr_df) (a : heatmap_args U) : dict (kwarg U) :=
    let default_layout_kwargs :=
      [("xaxis_showgrid", KBool false); ("yaxis_showgrid", KBool false);
       ("template", KText "simple_white"); ("yaxis_autorange", KText "reversed")] in
    dupdate (dupdate (dupdate default_layout_kwargs (get_annotations c a)) (get_axes_ticks_kwargs a))
      (map (fun kv => (fst kv, KUser (snd kv))) (ha_layout_kwargs a)).

  (** correlation_heatmap.py:9-111 [plot_correlation_heatmap]. The keywords z, x and y
      cannot be given twice (TypeError). *)
  Definition plot_correlation_heatmap (c : corr_df) (a : heatmap_args U) : result (figure U) :=
    let c := process_corr_data c (ha_show_upper_triangle a) (ha_show_diagonal a) (ha_trim a) in
    do hk <- get_heatmap_kwargs c a;
    let lk := get_layout_kwargs c a in
    if smem "z" (dkeys hk) || smem "x" (dkeys hk) || smem "y" (dkeys hk) then Err OtherError
    else Ok (mk_figure (co_cells c) (co_columns c) (co_index c) hk lk).
End Plot.
Arguments get_heatmap_kwargs {U}.
Arguments plot_correlation_heatmap {U}. Arguments get_annotations {U}. Arguments get_layout_kwargs {U}.
