(** Theorems about the options of the plots (C112). *)
Require Import Reals String Arith Bool List Lia.
From Verif Require Import PyBase ListFacts StringFacts Heatmap PropsHeatmapFigure TransitionPlots SpecPlots DistributionPlots
  PropsDistributionGrid PlotOptions.
Import ListNotations.
Open Scope string_scope.
Open Scope list_scope.
Open Scope nat_scope.

(** What a figure gets for the option [key]: the value of the user if there is one, and
    the documented default otherwise. *)
Definition option_resolved {U} (user : option (dict U)) (default : string -> option (option_value U))
    (result : dict (option_value U)) : Prop :=
  (forall d key x, user = Some d -> In (key, x) d -> dget result key = Some (OUser x)) /\
  (forall key, (forall d x, user = Some d -> ~ In (key, x) d) -> dget result key = default key).

(** A dictionary has each key once. *)
Definition good_user {U} (user : option (dict U)) : Prop := forall d, user = Some d -> NoDup (map fst d).

Lemma dget_user {U} (d : dict U) k :
  dget (map (fun kv => (fst kv, @OUser U (snd kv))) d) k = option_map OUser (dget d k).
Proof.
  induction d as [|[j x] d IH]; [reflexivity|]. cbn [map dget fst snd].
  destruct (String.eqb k j); [reflexivity|exact IH].
Qed.
Lemma dkeys_user {U} (d : dict U) : dkeys (map (fun kv => (fst kv, @OUser U (snd kv))) d) = dkeys d.
Proof. unfold dkeys. rewrite map_map. reflexivity. Qed.

Lemma resolved_update {U} (d : dict U) defaults (default : string -> option (option_value U)) :
  NoDup (map fst d) -> (forall key, dget defaults key = default key) ->
  option_resolved (Some d) default (dupdate defaults (map (fun kv => (fst kv, OUser (snd kv))) d)).
Proof.
  intros Hnd Hd. split.
  - intros d' key x [= <-] Hin. rewrite dget_dupdate by (rewrite dkeys_user; exact Hnd).
    rewrite dget_user, (In_dget d key x Hnd Hin). reflexivity.
  - intros key Hno. rewrite dget_dupdate by (rewrite dkeys_user; exact Hnd). rewrite dget_user.
    destruct (dget d key) as [x|] eqn:E; [|apply Hd].
    apply dget_In in E. now elim (Hno d x eq_refl).
Qed.

Lemma resolved {U} (user : option (dict U)) defaults (default : string -> option (option_value U)) :
  good_user user -> (forall key, dget defaults key = default key) ->
  option_resolved user default (updated defaults user).
Proof.
  intros Hu Hd. destruct user as [[|kv d]|].
  - split; [intros d key x [= <-] []|]. intros key _. apply Hd.
  - exact (resolved_update (kv :: d) defaults default (Hu _ eq_refl) Hd).
  - split; [intros d key x [=]|]. intros key _. apply Hd.
Qed.

Lemma nth_error_Some_lt {A} (l : list A) i x : nth_error l i = Some x -> i < length l.
Proof. intros H. apply nth_error_Some. congruence. Qed.

Ltac keys := repeat match goal with |- context [String.eqb ?a ?b] => destruct (String.eqb_spec a b); subst; cbn [orb]; try congruence end;
             try reflexivity.

(** The plots of one factor hand to plotly what the user asks for. A palette of colors
    that does not exist is an error, even if the user passes colors. *)
Theorem C112_distplot :
  forall U qualitative show_curve show_hist show_rug curve_type (bin_size : U) scenarios colorscale user,
    good_user user ->
    match qualitative colorscale with
    | None => process_distplot_kwargs qualitative show_curve show_hist show_rug curve_type bin_size scenarios colorscale user
              = Err OtherError
    | Some colors => exists kwargs,
        process_distplot_kwargs qualitative show_curve show_hist show_rug curve_type bin_size scenarios colorscale user = Ok kwargs /\
        option_resolved user (fun key =>
          if key =? "show_curve" then Some (OBool show_curve)
          else if key =? "show_hist" then Some (OBool show_hist)
          else if key =? "show_rug" then Some (OBool show_rug)
          else if key =? "curve_type" then Some (OText curve_type)
          else if key =? "bin_size" then Some (OUser bin_size)
          else if key =? "group_labels" then Some (OTexts scenarios)
          else if key =? "colors" then Some (OTexts colors)
          else None)%string kwargs
    end.
Proof.
  intros U q sc sh sr ct bs sn cs user Hu. unfold process_distplot_kwargs. destruct (q cs) as [colors|]; [|reflexivity].
  eexists. split; [reflexivity|]. apply resolved; [exact Hu|]. intros key. cbn [dget]. keys.
Qed.
Print Assumptions C112_distplot.

(** Contour plots. Without a coloring, plotly is told that there is none. *)
Theorem C112_contours :
  forall U (user : option (dict U)) showlabels coloring colorscale showscale,
    good_user user ->
    option_resolved user (fun key =>
      if key =? "contours_coloring" then Some (OText (match coloring with Some c => c | None => "none" end))
      else if key =? "contours_showlabels" then Some (OBool showlabels)
      else if key =? "colorscale" then Some (OText colorscale)
      else if key =? "showscale" then Some (OBool showscale)
      else None)%string (process_contour_kwargs user showlabels coloring colorscale showscale).
Proof. intros U user sl c cs ss Hu. apply resolved; [exact Hu|]. intros key. cbn [dget]. keys. Qed.
Print Assumptions C112_contours.

(** The layout of contour plots. *)
Theorem C112_layout :
  forall U (user : option (dict U)), good_user user ->
    option_resolved user (fun key =>
      if key =? "template" then Some (OText "simple_white")
      else if (key =? "xaxis_showgrid") || (key =? "yaxis_showgrid") then Some (OBool false)
      else None)%string (process_layout_kwargs user).
Proof. intros U user Hu. apply resolved; [exact Hu|]. intros key. cbn [dget]. keys. Qed.
Print Assumptions C112_layout.

(** The layout of surface plots: the three axes show grids and lines as asked, and their
    titles are removed exactly if there are to be no labels. *)
Theorem C112_surface_layout :
  forall U (user : option (dict U)) showgrids showaxlines showlabels, good_user user ->
    exists scene,
    option_resolved user (fun key =>
      if key =? "template" then Some (OText "none")
      else if key =? "scene" then Some (OScene scene)
      else None)%string (process_layout_kwargs_3d user showgrids showaxlines showlabels) /\
    map fst scene = ["xaxis"; "yaxis"; "zaxis"] /\
    forall name axis, In (name, axis) scene ->
      dget axis "showgrid" = Some (AShow showgrids) /\ dget axis "showline" = Some (AShow showaxlines) /\
      dget axis "title" = (if showlabels then None else Some (ATitle "")).
Proof.
  intros U user sg sl lab Hu. exists (default_scene sg sl lab). split; [|split].
  - apply resolved; [exact Hu|]. intros key. rewrite dget_dset. cbn [dget]. keys.
  - now destruct lab.
  - intros name axis Hin.
    destruct lab; cbn in Hin; repeat (destruct Hin as [[= <- <-]|Hin]; [now repeat split|]); destruct Hin.
Qed.
Print Assumptions C112_surface_layout.

(** In the figure of a surface, the axes are named after the two factors unless the user
    wants no labels. The vertical axis has no title. *)
Theorem C112_surface_titles :
  forall f g showgrids showaxlines showlabels,
    let axes := surface_axes (f, g) showgrids showaxlines showlabels in
    (forall name title, In (name, title) [("xaxis", f); ("yaxis", g); ("zaxis", "")] ->
       exists axis, dget axes name = Some axis /\
         dget axis "title" = Some (ATitle (if showlabels then title else "")) /\
         dget axis "showgrid" = Some (AShow showgrids) /\ dget axis "showline" = Some (AShow showaxlines)).
Proof.
  intros f g sg sl lab axes name title Hin. unfold axes.
  destruct lab; cbn in Hin; repeat (destruct Hin as [[= <- <-]|Hin]; [eexists; split; [reflexivity|now repeat split]|]); destruct Hin.
Qed.
Print Assumptions C112_surface_titles.

Lemma scene_specs_right nr nc r row : nth_error (scene_specs nr nc) r = Some row ->
  length row = nc /\ forall c kind, nth_error row c = Some kind -> (kind = SceneSubplot <-> r < c).
Proof.
  intros Hr. unfold scene_specs, range in Hr. rewrite nth_error_map in Hr.
    destruct (nth_error (seq 0 (nr)) r) as [r'|] eqn:E; [|discriminate].
    assert (r' = r).
    { pose proof (nth_error_nth _ _ 0 E) as N. rewrite seq_nth in N; [lia|].
      apply nth_error_Some_lt in E. now rewrite seq_length in E. }
    subst r'. injection Hr as <-. split; [now rewrite map_length, seq_length|].
    intros c kind Hc. rewrite nth_error_map in Hc.
    destruct (nth_error (seq 0 nc) c) as [c'|] eqn:E'; [|discriminate].
    assert (c' = c).
    { pose proof (nth_error_nth _ _ 0 E') as N. rewrite seq_nth in N; [lia|].
      apply nth_error_Some_lt in E'. now rewrite seq_length in E'. }
    subst c'. injection Hc as <-. destruct (Nat.ltb_spec r c); split; [easy|easy|discriminate|lia].
Qed.

(** The grid of a combined figure. *)
Theorem C112_grid :
  forall U sharex sharey columns rows (user : option (dict U)) add_scenes, good_user user ->
    match columns with
    | [] => get_make_subplot_kwargs sharex sharey columns rows user add_scenes = Err OtherError
    | _ => exists kwargs specs,
        get_make_subplot_kwargs sharex sharey columns rows user add_scenes = Ok kwargs /\
        option_resolved user (fun key =>
          if key =? "rows" then Some (ONumber (length rows))
          else if key =? "cols" then Some (ONumber (length columns))
          else if key =? "start_cell" then Some (OText "top-left")
          else if key =? "print_grid" then Some (OBool false)
          else if key =? "shared_xaxes" then Some (OBool sharex)
          else if key =? "shared_yaxes" then Some (OBool sharey)
          else if key =? "horizontal_spacing" then
            Some (OReal (if sharey then 1 / (INR (length columns) * 6) else 2 * (1 / (INR (length columns) * 6)))%R)
          else if key =? "vertical_spacing" then
            (if (1 <? length rows)%nat then Some (OReal (1 / (INR (length rows) - 1) / 4)%R) else None)
          else if key =? "specs" then (if add_scenes then Some (OSpecs specs) else None)
          else None)%string kwargs /\
        length specs = length rows /\
        (forall r row, nth_error specs r = Some row ->
           length row = length columns /\
           forall c kind, nth_error row c = Some kind -> (kind = SceneSubplot <-> r < c))
    end.
Proof.
  intros U sx sy columns rows user scenes Hu. destruct columns as [|c0 columns]; [reflexivity|].
  unfold get_make_subplot_kwargs. set (nc := length (c0 :: columns)). change (nc =? 0) with false. cbv iota.
  eexists _, (scene_specs (length rows) nc). split; [reflexivity|]. split; [|split].
  - assert (E : forall d, match user with
        | Some k => dupdate d (map (fun kv => (fst kv, OUser (snd kv))) k)
        | None => d
        end = updated d user).
    { intros d. now destruct user as [[|kv k]|]. }
    rewrite E. apply resolved; [exact Hu|]. intros key.
    destruct (1 <? length rows), sy, scenes; rewrite ?dget_dset; cbn [dget]; keys.
  - unfold scene_specs, range. now rewrite map_length, seq_length.
  - apply scene_specs_right.
Qed.
Print Assumptions C112_grid.

(** In the combined figure of distributions, the subplots are prepared for surfaces
    exactly where there are surfaces, and for other plots elsewhere. *)
Theorem C112_surfaces_in_scenes :
  forall U K C S kde_plots contour_plots surfaces order fm sharex sharey ordered (user : option (dict U)),
    good_user user -> (forall d x, user = Some d -> ~ In ("specs", x) d) ->
    figure_factors order (map fst kde_plots) ordered ->
    complete_plots K C S kde_plots contour_plots (Some surfaces) ordered ->
    ordered <> [] ->
    surfaces_estimated S (Some surfaces) ordered ->
    exists cells fm' kwargs specs,
      combine_distribution_plots kde_plots contour_plots (Some surfaces) order fm sharey = Ok (cells, fm') /\
      get_make_subplot_kwargs sharex sharey ordered ordered user true = Ok kwargs /\
      dget kwargs "specs" = Some (OSpecs specs) /\
      forall s, In s cells -> exists row kind,
        nth_error specs (ds_row s) = Some row /\ nth_error row (ds_column s) = Some kind /\
        (kind = SceneSubplot <-> exists trace, ds_content s = SurfaceCell trace).
Proof.
  intros U K C S kde contours surfaces order fm sx sy ordered user Hu Hs Ho Hc Hne Hest.
  destruct (C89_combined_partial K C S kde contours (Some surfaces) order fm sy ordered Ho Hc Hne Hest)
    as (cells & fm' & E & Hpos & Hcells).
  pose proof (C112_grid U sx sy ordered ordered user true Hu) as G.
  assert (G' : exists kwargs specs,
        get_make_subplot_kwargs sx sy ordered ordered user true = Ok kwargs /\
        dget kwargs "specs" = Some (OSpecs specs) /\ length specs = length ordered /\
        (forall r row, nth_error specs r = Some row ->
           length row = length ordered /\
           forall c kind, nth_error row c = Some kind -> (kind = SceneSubplot <-> r < c))).
  { destruct ordered as [|f0 ordered]; [easy|]. destruct G as (kwargs & specs & G1 & (_ & G2) & G3 & G4).
    exists kwargs, specs. split; [exact G1|]. split; [|easy]. exact (G2 "specs" Hs). }
  destruct G' as (kwargs & specs & G1 & G2 & G3 & G4).
  exists cells, fm', kwargs, specs. split; [exact E|]. split; [exact G1|]. split; [exact G2|].
  intros s Hin. destruct (Hcells s Hin) as (f & g & Hcol & Hrow & Hlt & Heq & Hgt).
  apply nth_error_Some_lt in Hcol. apply nth_error_Some_lt in Hrow.
  destruct (nth_error specs (ds_row s)) as [row|] eqn:Er; [|apply nth_error_None in Er; lia].
  destruct (G4 _ _ Er) as [Hl Hk].
  destruct (nth_error row (ds_column s)) as [kind|] eqn:Ek; [|apply nth_error_None in Ek; lia].
  exists row, kind. split; [reflexivity|]. split; [exact Ek|]. rewrite (Hk _ _ Ek). split.
  - intros H. destruct (Hgt H) as (trace & traces & _ & Ht). now exists trace.
  - intros [trace Ht]. destruct (Nat.lt_trichotomy (ds_column s) (ds_row s)) as [H|[H|H]]; [| |exact H].
    + destruct (Hlt H) as (? & ? & _ & Ht' & _). congruence.
    + destruct (Heq H) as (? & _ & Ht' & _). congruence.
Qed.
Print Assumptions C112_surfaces_in_scenes.

Example C112_nonvacuous :
  good_user (Some [("template", 7); ("scene", 8)]) /\
  dget (process_layout_kwargs_3d (Some [("template", 7); ("height", 8)]) true false false) "template" = Some (OUser 7) /\
  dget (process_layout_kwargs_3d (Some [("template", 7); ("scene", 8)]) true false false) "scene" = Some (OUser 8) /\
  dget (process_contour_kwargs (Some [("showscale", 1)]) true None "RdBu_r" true) "contours_coloring" = Some (OText "none") /\
  dget (process_layout_kwargs (Some [("xaxis_title", 1)])) "template" = Some (OText "simple_white") /\
  scene_specs 2 3 = [[FlatSubplot; SceneSubplot; SceneSubplot]; [FlatSubplot; FlatSubplot; SceneSubplot]].
Proof.
  split; [|repeat split]. intros d [= <-]. repeat constructor; cbn; intros H; repeat destruct H as [H|H]; try discriminate H; exact H.
Qed.

Example C112_surfaces_nonvacuous :
  let kdes := [("a", [1]); ("b", [2])] in
  let contours := [(("a", "b"), ([3], ("a", "b")))] in
  let surfaces := [(("b", "a"), [4])] in
  figure_factors DefaultOrder ["a"; "b"] ["a"; "b"] /\
  complete_plots nat nat nat kdes contours (Some surfaces) ["a"; "b"] /\
  surfaces_estimated nat (Some surfaces) ["a"; "b"] /\
  good_user (Some [("rows", 5)]) /\ (forall d x, Some [("rows", 5)] = Some d -> ~ In ("specs", x) d).
Proof.
  cbv zeta. split; [reflexivity|]. split; [|split; [|split]].
  - split; [repeat constructor; simpl; intuition discriminate|]. split; [repeat constructor; simpl; tauto|].
    split. { intros d [= <-]. repeat constructor; simpl; tauto. }
    split; [simpl; tauto|].
    intros [|[|[|c]]] [|[|[|r]]] f g Hc Hr; cbn in Hc, Hr; try discriminate; injection Hc as <-; injection Hr as <-;
      (split; [intros Hlt|intros Hlt d [= <-]]); try (exfalso; lia).
    + exists [3]. now left.
    + exists [4]. now left.
  - intros d c r f g [= <-]. intros H1 H2 H3 H. 
    cbn in *. intuition congruence.
  - intros d [= <-]. repeat constructor. intros [].
  - intros d x [= <-] [H|[]]. discriminate.
Qed.
