(** Options of the plots: how the arguments of the user and the defaults of the package are
    combined before they are handed to plotly. *)
Require Import Reals String Arith Bool List.
From Verif Require Import PyBase Heatmap TransitionPlots.
Import ListNotations.
Open Scope string_scope.
Open Scope list_scope.
Open Scope nat_scope.

(** A setting of an axis of a three-dimensional figure. *)
Inductive axis_value := AShow (b : bool) | ATitle (s : string).

(** The type of a subplot in the argument [specs] of [make_subplots]: [{}] or
    [{"type": "scene"}]. *)
Inductive subplot_type := FlatSubplot | SceneSubplot.

(** The value of an option. Values of the user are not interpreted. *)
Inductive option_value (U : Type) :=
| OUser (x : U) | OBool (b : bool) | ONumber (n : nat) | OReal (x : R) | OText (s : string)
| OTexts (l : list string) | OScene (d : dict (dict axis_value)) | OSpecs (l : list (list subplot_type)).
Arguments OUser {U}. Arguments OBool {U}. Arguments ONumber {U}. Arguments OReal {U}. Arguments OText {U}.
Arguments OTexts {U}. Arguments OScene {U}. Arguments OSpecs {U}.

(** [default_kwargs.update(kwargs)] if [kwargs] is neither None nor empty
    (visualize_factor_distributions.py:521-522, 557-558, 569-570, 588-589). *)
Definition updated {U} (defaults : dict (option_value U)) (kwargs : option (dict U)) : dict (option_value U) :=
  match kwargs with
  | Some (kv :: k) => dupdate defaults (map (fun kv => (fst kv, OUser (snd kv))) (kv :: k))
  | _ => defaults
  end.

(** visualize_factor_distributions.py:500-523 [_process_distplot_kwargs]. [qualitative]:
    the attributes of [px.colors.qualitative]; AttributeError is [OtherError]. The size
    of the bins is not interpreted. *)
Definition process_distplot_kwargs {U} (qualitative : string -> option (list string))
    (show_curve show_hist show_rug : bool) (curve_type : string) (bin_size : U)
    (scenarios : list string) (colorscale : string) (distplot_kwargs : option (dict U))
  : result (dict (option_value U)) :=
  match qualitative colorscale with
  | None => Err OtherError
  | Some colors =>
      Ok (updated [("show_hist", OBool show_hist); ("show_rug", OBool show_rug);
                   ("show_curve", OBool show_curve); ("curve_type", OText curve_type);
                   ("bin_size", OUser bin_size); ("group_labels", OTexts scenarios);
                   ("colors", OTexts colors)] distplot_kwargs)
  end.

(** visualize_factor_distributions.py:540-559 [_process_contour_kwargs] *)
Definition process_contour_kwargs {U} (contour_kwargs : option (dict U)) (contours_showlabels : bool)
    (contours_coloring : option string) (contours_colorscale : string) (contours_showscale : bool)
  : dict (option_value U) :=
  let coloring := match contours_coloring with None => "none" | Some c => c end in
  updated [("contours_coloring", OText coloring); ("contours_showlabels", OBool contours_showlabels);
           ("colorscale", OText contours_colorscale); ("showscale", OBool contours_showscale)]
    contour_kwargs.

(** visualize_factor_distributions.py:562-571 [_process_layout_kwargs] *)
Definition process_layout_kwargs {U} (layout_kwargs : option (dict U)) : dict (option_value U) :=
  updated [("template", OText "simple_white"); ("xaxis_showgrid", OBool false);
           ("yaxis_showgrid", OBool false)] layout_kwargs.

(** visualize_factor_distributions.py:579-587: the default of the option [scene]. *)
Definition default_scene (showgrids showaxlines showlabels : bool) : dict (dict axis_value) :=
  fold_left (fun scene ax =>
      let scene := dset scene (ax ++ "axis")%string [("showgrid", AShow showgrids); ("showline", AShow showaxlines)] in
      if showlabels then scene
      else match dget scene (ax ++ "axis")%string with
           | Some axis => dset scene (ax ++ "axis")%string (dset axis "title" (ATitle ""))
           | None => scene
           end)
    ["x"; "y"; "z"] [].

(** visualize_factor_distributions.py:574-590 [_process_layout_kwargs_3d] *)
Definition process_layout_kwargs_3d {U} (layout_kwargs : option (dict U)) (showgrids showaxlines showlabels : bool)
  : dict (option_value U) :=
  updated (dset [("template", OText "none")] "scene" (OScene (default_scene showgrids showaxlines showlabels)))
    layout_kwargs.

(** [fig.update_layout(scene=...)] (plotly, by contract): the settings of each axis are
    merged into the ones that the figure has. *)
Definition update_scene (scene new : dict (dict axis_value)) : dict (dict axis_value) :=
  fold_left (fun scene kv =>
      dset scene (fst kv) (dupdate (match dget scene (fst kv) with Some a => a | None => [] end) (snd kv)))
    new scene.

(** visualize_factor_distributions.py:464-471: the axes of a surface figure, starting
    from a figure without settings, if the user passes no [scene]. *)
Definition surface_axes (pair : string * string) (showgrids showaxlines showlabels : bool) : dict (dict axis_value) :=
  update_scene
    (update_scene [] [("xaxis", [("title", ATitle (fst pair))]); ("yaxis", [("title", ATitle (snd pair))]);
                      ("zaxis", [("title", ATitle "")])])
    (default_scene showgrids showaxlines showlabels).

(** utils_plotting.py:62-68: the types of the subplots. *)
Definition scene_specs (nrows ncols : nat) : list (list subplot_type) :=
  map (fun i => map (fun j => if i <? j then SceneSubplot else FlatSubplot) (range ncols)) (range nrows).

(** utils_plotting.py:39-71 [get_make_subplot_kwargs]. A number of columns of zero raises
    ZeroDivisionError. *)
Definition get_make_subplot_kwargs {U} (sharex sharey : bool) (columns rows : list string)
    (make_subplot_kwargs : option (dict U)) (add_scenes : bool) : result (dict (option_value U)) :=
  let nrows := length rows in
  let ncols := length columns in
  if ncols =? 0 then Err OtherError
  else
    let horizontal := (1 / (INR ncols * 6))%R in
    let d := [("rows", ONumber nrows); ("cols", ONumber ncols); ("start_cell", OText "top-left");
              ("print_grid", OBool false); ("shared_yaxes", OBool sharey); ("shared_xaxes", OBool sharex);
              ("horizontal_spacing", OReal horizontal)] in
    let d := if 1 <? nrows then dset d "vertical_spacing" (OReal (1 / (INR nrows - 1) / 4)%R) else d in
    let d := if sharey then d else dset d "horizontal_spacing" (OReal (2 * horizontal)%R) in
    let d := if add_scenes then dset d "specs" (OSpecs (scene_specs nrows ncols)) else d in
    Ok (match make_subplot_kwargs with
        | Some k => dupdate d (map (fun kv => (fst kv, OUser (snd kv))) k)
        | None => d
        end).
