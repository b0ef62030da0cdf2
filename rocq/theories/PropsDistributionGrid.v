(** Theorems about the combination of distribution plots (C89). *)
Require Import Reals QArith String Arith ZArith Bool List Lia Lra.
From Verif Require Import PyBase ListFacts StringFacts ModelSpec CheckModel SpecModel ProcessModel ProcessData RSum ParamsIndex DebugData SpecDebug
  Simulate Heatmap Kalman Likelihood TransitionPlots SpecPlots PlotFacts DistributionPlots SpecDistributions DistributionFacts
  PropsPlotGrid PropsDistributions ExampleModels TransitionFunctions.
Import ListNotations.
Open Scope string_scope.
Open Scope list_scope.
Open Scope nat_scope.

(** The factors of the figure: those of the user or all that have a plot. *)
Definition figure_factors (order : order_arg) (keys ordered : list string) : Prop :=
  match order with
  | DefaultOrder => ordered = keys
  | OneName s => ordered = [s]
  | Names l => ordered = l
  end.

Lemma pget_In {V} (d : list ((string * string) * V)) k v : NoDup (map fst d) -> In (k, v) d -> pget d k = Ok v.
Proof.
  intros Hnd Hin. unfold pget. destruct (find (fun kv => pair_eqb k (fst kv)) d) as [[k' v']|] eqn:E.
  - apply find_some in E as [Hin' E]. cbn [fst snd] in *. apply pair_eqb_spec in E. subst k'.
    assert ((k, v) = (k, v')) as H; [|congruence]. apply (map_NoDup_inj fst d Hnd); auto.
  - pose proof (find_none _ _ E _ Hin) as F. cbn [fst] in F. now rewrite (proj2 (pair_eqb_spec k k) eq_refl) in F.
Qed.

Lemma mapM_err {A B} (f : A -> result B) l x e : In x l -> f x = Err e -> exists e', mapM f l = Err e'.
Proof.
  intros Hin E. destruct (mapM f l) as [ys|e'] eqn:Em; [|eauto]. exfalso.
  destruct (mapM_In f l ys x Em Hin) as (y & Ey & _). congruence.
Qed.

Section Grid.
  Variables K C S : Type.
  Variable kde_plots : dict (list K).
  Variable contour_plots : list ((string * string) * (list C * (string * string))).
  Variable surface_plots : option (list ((string * string) * list S)).
  Variable ordered : list string.
  Variable fm : option (dict string).

  (** All plots that the figure needs are there. The titles of contours are the names of
      the factors. *)
  Definition complete_plots : Prop :=
    NoDup (map fst kde_plots) /\ NoDup (map fst contour_plots) /\
    (forall s, surface_plots = Some s -> NoDup (map fst s)) /\
    (forall f, In f ordered -> In f (map fst kde_plots)) /\
    forall c r f g, nth_error ordered c = Some f -> nth_error ordered r = Some g ->
      (c < r -> exists traces, In ((f, g), (traces, (f, g))) contour_plots) /\
      (r < c -> forall s, surface_plots = Some s -> exists traces, In ((f, g), traces) s).

  (** What a cell of the figure is supposed to show, if [f] is the factor of its column
      and [g] that of its row. *)
  Definition right_cell (s : dist_subplot K C S) : Prop :=
    exists f g, nth_error ordered (ds_column s) = Some f /\ nth_error ordered (ds_row s) = Some g /\
    (ds_column s < ds_row s -> exists traces titles,
       In ((f, g), (traces, titles)) contour_plots /\ ds_content s = ContourCell traces /\ ds_legend s = false /\
       (traces <> [] -> ds_xtitle s = Some (displayed fm f) /\ ds_ytitle s = Some (displayed fm g))) /\
    (ds_column s = ds_row s -> exists traces,
       In (f, traces) kde_plots /\ ds_content s = KdeCell traces /\
       (traces <> [] -> ds_xtitle s = Some (displayed fm f) /\ ds_ytitle s = Some "Density" /\
                        (ds_legend s = true <-> ds_row s = 0))) /\
    (ds_row s < ds_column s ->
       match surface_plots with
       | None => ds_content s = EmptyCell
       | Some d => exists trace traces, In ((f, g), trace :: traces) d /\ ds_content s = SurfaceCell trace
       end).

  Variables (order : order_arg) (sharey : bool).
  Hypothesis Hordered : figure_factors order (map fst kde_plots) ordered.
  Hypothesis Hcomplete : complete_plots.

  Lemma In_enumerate' {A} (l : list A) i x : In (i, x) (enumerate l) <-> nth_error l i = Some x.
  Proof.
    unfold enumerate. assert (G : forall k, In (i, x) (combine (seq k (length l)) l) <-> k <= i /\ nth_error l (i - k) = Some x).
    { induction l as [|y l IH]; intros k; cbn [length seq combine].
      - split; [intros []|]. intros [_ H]. destruct (i - k); discriminate.
      - cbn [In]. rewrite IH. split.
        + intros [E|[H1 H2]].
          * injection E as -> ->. split; [lia|]. now rewrite Nat.sub_diag.
          * split; [lia|]. replace (i - k) with (Datatypes.S (i - Datatypes.S k)) by lia. exact H2.
        + intros [H1 H2]. destruct (Nat.eq_dec i k) as [->|Hne].
          * left. rewrite Nat.sub_diag in H2. cbn in H2. congruence.
          * right. split; [lia|]. replace (i - k) with (Datatypes.S (i - Datatypes.S k)) in H2 by lia. exact H2. }
    rewrite (G 0), Nat.sub_0_r. split; [tauto|]. split; [lia|assumption].
  Qed.

  Lemma kde_entry f : In f ordered -> exists traces, In (f, traces) kde_plots /\ dget kde_plots f = Some traces.
  Proof.
    intros Hf. destruct Hcomplete as (Hnd & _ & _ & Hin & _). apply Hin in Hf.
    apply in_map_iff in Hf as ([f' traces] & E & Hf). cbn [fst] in E. subst f'. exists traces. split; [exact Hf|].
    now apply In_dget.
  Qed.

  Lemma names_ok f : In f ordered -> dget (process_factor_mapping fm (dkeys kde_plots)) f = Some (displayed fm f).
  Proof. intros Hf. apply mapping_displayed. destruct Hcomplete as (_ & _ & _ & Hin & _). now apply Hin. Qed.

  Lemma ordered_ok : get_ordered_factors order (dkeys kde_plots) = ordered.
  Proof. unfold get_ordered_factors, figure_factors, dkeys in *. destruct order; congruence. Qed.

  (** If there are surfaces, all that are needed have been estimated. *)
  Definition surfaces_estimated : Prop :=
    forall d c r f g, surface_plots = Some d -> r < c ->
      nth_error ordered c = Some f -> nth_error ordered r = Some g -> ~ In ((f, g), []) d.

  Lemma combined : ordered <> [] -> surfaces_estimated ->
    exists cells fm',
      combine_distribution_plots kde_plots contour_plots surface_plots order fm sharey = Ok (cells, fm') /\
      map (fun s => (ds_column s, ds_row s)) cells
        = list_prod (seq 0 (length ordered)) (seq 0 (length ordered)) /\
      forall s, In s cells -> right_cell s.
  Proof.
    intros Hne Hsurf. unfold combine_distribution_plots. rewrite ordered_ok.
    destruct (default_grid sharey (length ordered) (length ordered)) as (g & -> & Eg).
    { destruct ordered; [contradiction|simpl; lia]. } { destruct ordered; [contradiction|simpl; lia]. }
    cbn [rbind]. rewrite Eg. cbn [rbind].
    match goal with |- context [mapM ?fn ?l] =>
      assert (G : forall x, In x l -> exists s, fn x = Ok s /\ (ds_column s, ds_row s) = (fst (fst x), fst (snd x)) /\ right_cell s)
    end.
    { intros [[c f] [r g']] Hin. apply in_prod_iff in Hin as [Hc Hr]. apply In_enumerate' in Hc. apply In_enumerate' in Hr.
      cbn [fst snd]. pose proof (nth_error_In _ _ Hc) as Hf. pose proof (nth_error_In _ _ Hr) as Hg'.
      destruct Hcomplete as (Hnk & Hnc & Hns & Hink & Hpairs). destruct (Hpairs c r f g' Hc Hr) as [Hcont Hsur].
      destruct (Nat.ltb_spec c r) as [Hlt|Hge].
      - destruct (Hcont Hlt) as (traces & Hin). rewrite (pget_In _ _ _ Hnc Hin). cbn [rbind fst snd].
        unfold dget_err. rewrite (names_ok f Hf), (names_ok g' Hg'). cbn [rbind].
        destruct traces as [|tr trs]; eexists; (split; [reflexivity|]); (split; [reflexivity|]); exists f, g';
          cbn [ds_row ds_column ds_content ds_legend ds_xtitle ds_ytitle]; (split; [exact Hc|]); (split; [exact Hr|]);
          (split; [|split; [intros ->; lia|intros; lia]]); intros _; eexists _, _; (split; [exact Hin|]); (split; [reflexivity|]);
          (split; [reflexivity|]); [intros F; contradiction|intros _; auto].
      - destruct (Nat.eqb_spec c r) as [<-|Hneq].
        + assert (g' = f) by congruence. subst g'. destruct (kde_entry f Hf) as (traces & Hin & Ed). unfold dget_err.
          rewrite Ed, (names_ok f Hf). cbn [rbind].
          destruct traces as [|tr trs]; eexists; (split; [reflexivity|]); (split; [reflexivity|]); exists f, f;
            cbn [ds_row ds_column ds_content ds_legend ds_xtitle ds_ytitle]; (split; [exact Hc|]); (split; [exact Hr|]);
            (split; [intros; lia|]); (split; [|intros; lia]); intros _; eexists; (split; [exact Hin|]); (split; [reflexivity|]).
          * intros F; contradiction.
          * intros _. split; [reflexivity|]. split; [reflexivity|]. apply Nat.eqb_eq.
        + assert (Hlt : r < c) by lia. destruct surface_plots as [d|] eqn:Es.
          * destruct (Hsur Hlt d eq_refl) as (traces & Hin). rewrite (pget_In _ _ _ (Hns d eq_refl) Hin). cbn [rbind].
            destruct traces as [|tr trs]; [exfalso; exact (Hsurf d c r f g' Es Hlt Hc Hr Hin)|].
            cbn [nth_err nth_error rbind]. eexists. split; [reflexivity|]. split; [reflexivity|]. exists f, g'.
            cbn [ds_row ds_column ds_content ds_legend ds_xtitle ds_ytitle]. split; [exact Hc|]. split; [exact Hr|].
            split; [intros; lia|]. split; [intros; lia|]. intros _. rewrite Es. exists tr, trs. auto.
          * eexists. split; [reflexivity|]. split; [reflexivity|]. exists f, g'.
            cbn [ds_row ds_column ds_content ds_legend ds_xtitle ds_ytitle]. split; [exact Hc|]. split; [exact Hr|].
            split; [intros; lia|]. split; [intros; lia|]. intros _. now rewrite Es. }
    match goal with |- context [mapM ?fn ?l] => destruct (mapM_total fn l) as [cells Ecells] end.
    { intros x Hx. destruct (G x Hx) as (s & E & _). eauto. }
    rewrite Ecells. cbn [rbind]. eexists cells, _. split; [reflexivity|]. split.
    - assert (Hl : forall (l l' : list (nat * string)),
        map (fun x : (nat * string) * (nat * string) => (fst (fst x), fst (snd x))) (list_prod l l') = list_prod (map fst l) (map fst l')).
      { intros l l'. induction l as [|a l IH]; [reflexivity|]. cbn [list_prod map]. rewrite map_app, IH, !map_map. reflexivity. }
      assert (Hm : map fst (enumerate ordered) = seq 0 (length ordered)).
      { unfold enumerate. generalize 0 as k. clear. induction ordered as [|x l IH]; intros k; [reflexivity|]. cbn. now rewrite IH. }
      rewrite <- Hm, <- Hl. apply mapM_ok in Ecells. clear -Ecells G.
      induction Ecells as [|x s l l' E _ IH]; [reflexivity|].
      cbn [map]. f_equal.
      + destruct (G x) as (s' & E' & H & _); [now left|]. rewrite E in E'. injection E' as <-. exact H.
      + apply IH. intros y Hy. apply G. now right.
    - intros s Hs. apply (mapM_In_inv _ _ _ _ Ecells) in Hs as (x & E & Hx).
      destruct (G x Hx) as (s' & E' & _ & H). rewrite E in E'. injection E' as <-. exact H.
  Qed.

  Lemma not_combined d c r f g : surface_plots = Some d -> r < c ->
    nth_error ordered c = Some f -> nth_error ordered r = Some g -> In ((f, g), []) d ->
    exists e, combine_distribution_plots kde_plots contour_plots surface_plots order fm sharey = Err e.
  Proof.
    intros Es Hlt Hc Hr Hin. unfold combine_distribution_plots. rewrite ordered_ok.
    destruct (get_grid _ _ _) as [gr|e]; cbn [rbind]; [|eauto]. destruct (make_subplots gr) as [u|e]; cbn [rbind]; [|eauto].
    match goal with |- context [mapM ?fn ?l] => destruct (mapM_err fn l ((c, f), (r, g)) IndexError) as [e ->] end.
    - apply in_prod; now apply In_enumerate'.
    - cbn [fst snd]. destruct (Nat.ltb_spec c r) as [F|_]; [lia|]. destruct (Nat.eqb_spec c r) as [F|_]; [lia|].
      rewrite Es. destruct Hcomplete as (_ & _ & Hns & _). rewrite (pget_In _ _ _ (Hns d Es) Hin). reflexivity.
    - cbn [rbind]. eauto.
  Qed.
End Grid.

(** * C89 *)

(** The combined figure has a row and a column for each factor. The cells of the diagonal
    show the distribution of one factor. Below the diagonal, the contour has the factor of
    its column on the horizontal and that of its row on the vertical axis. Above the
    diagonal, there are surfaces, if they are given. *)
Theorem C89_combined_partial :
  forall K C S kde_plots contour_plots surface_plots order fm sharey ordered,
    figure_factors order (map fst kde_plots) ordered ->
    complete_plots K C S kde_plots contour_plots surface_plots ordered ->
    ordered <> [] ->
    surfaces_estimated S surface_plots ordered ->
    exists cells fm',
      combine_distribution_plots kde_plots contour_plots surface_plots order fm sharey = Ok (cells, fm') /\
      map (fun s => (ds_column s, ds_row s)) cells
        = list_prod (seq 0 (length ordered)) (seq 0 (length ordered)) /\
      forall s, In s cells -> right_cell K C S kde_plots contour_plots surface_plots ordered fm s.
Proof.
  intros K C S kde contours surfaces order fm sharey ordered Ho Hc Hne Hs.
  exact (combined K C S kde contours surfaces ordered fm order sharey Ho Hc Hne Hs).
Qed.
Print Assumptions C89_combined_partial.

(** The figures can not be combined if one of the surfaces above the diagonal could not
    be estimated, although its figure is in the dictionary. *)
Theorem C89_failed_surface_refuted :
  forall K C S kde_plots contour_plots surfaces order fm sharey ordered c r f g,
    figure_factors order (map fst kde_plots) ordered ->
    complete_plots K C S kde_plots contour_plots (Some surfaces) ordered ->
    nth_error ordered c = Some f -> nth_error ordered r = Some g -> r < c ->
    In ((f, g), []) surfaces ->
    exists e, combine_distribution_plots kde_plots contour_plots (Some surfaces) order fm sharey = Err e.
Proof.
  intros K C S kde contours surfaces order fm sharey ordered c r f g Ho Hc Hf Hg Hlt Hin.
  exact (not_combined K C S kde contours (Some surfaces) ordered fm order sharey Ho Hc surfaces c r f g eq_refl Hlt Hf Hg Hin).
Qed.
Print Assumptions C89_failed_surface_refuted.

(** The figures of the three functions that make plots, as they are combined. *)
Definition kde_traces {D K} (traces : D -> list K) (plots : dict (option D)) : dict (list K) :=
  map (fun kv => (fst kv, match snd kv with Some fig => traces fig | None => [] end)) plots.
Definition contour_traces (plots : list ((string * string) * contour_figure))
  : list ((string * string) * (list contour * (string * string))) :=
  map (fun kv => (fst kv, (cf_traces (snd kv), (cf_xtitle (snd kv), cf_ytitle (snd kv))))) plots.
Definition surface_traces (plots : list ((string * string) * surface_figure))
  : list ((string * string) * list mesh) :=
  map (fun kv => (fst kv, sf_traces (snd kv))) plots.

(** The plots of the package can be combined if all densities can be estimated. *)
Theorem C89_plots_of_the_package :
  forall distplot create_distplot gaussian_kde nan neg_inf qr custom n_colors md p data params t states
         factors observed_factors fs n_points K (traces : distplot -> list K) fm sharey,
    needs_data gaussian_kde ->
    plot_setting md p data (OneTable states) factors observed_factors fs ->
    (forall f g, In f fs -> In g fs -> f <> g ->
       exists density, gaussian_kde (values_in t states f) (values_in t states g) = Ok density) ->
    exists univariate contours surfaces cells fm',
      univariate_densities distplot create_distplot nan neg_inf qr custom md data params t
        factors observed_factors (Some (OneTable states)) = Ok univariate /\
      bivariate_density_contours gaussian_kde nan neg_inf qr custom n_colors md data params t
        factors observed_factors (Some (OneTable states)) n_points = Ok contours /\
      bivariate_density_surfaces gaussian_kde nan neg_inf qr custom md data params t
        factors observed_factors (Some (OneTable states)) n_points = Ok surfaces /\
      combine_distribution_plots (kde_traces traces univariate) (contour_traces contours)
        (Some (surface_traces surfaces)) DefaultOrder fm sharey = Ok (cells, fm') /\
      map (fun s => (ds_column s, ds_row s)) cells = list_prod (seq 0 (length fs)) (seq 0 (length fs)) /\
      forall s, In s cells ->
        right_cell K contour mesh (kde_traces traces univariate) (contour_traces contours)
          (Some (surface_traces surfaces)) fs fm s.
Proof.
  intros distplot create kde nan neg_inf qr custom n_colors md p data params t states factors observed fs n K traces fm sharey
    Hkde Hset Hall.
  destruct (C86_univariate_densities distplot create nan neg_inf qr custom md p data params t (OneTable states) factors observed fs Hset)
    as (us & Eu & Hu & _).
  destruct (C87_contours kde nan neg_inf qr custom n_colors md p data params t (OneTable states) factors observed fs n Hkde Hset)
    as (cs & Ec & Hcn & Hcp & Hcf).
  destruct (C87_surfaces kde nan neg_inf qr custom md p data params t states factors observed fs n Hkde Hset)
    as (ss & Es & Hsn & Hsp & Hsf).
  destruct Hset as (Hp & Ha & Hne & Hnd & Hst & Hd).
  assert (Hku : map fst (kde_traces traces us) = fs) by (unfold kde_traces; rewrite map_map; exact Hu).
  destruct (C89_combined_partial K contour mesh (kde_traces traces us) (contour_traces cs) (Some (surface_traces ss)) DefaultOrder fm sharey fs)
    as (cells & fm' & E & Hpos & Hcells).
  - now rewrite Hku.
  - split; [now rewrite Hku|]. split; [unfold contour_traces; now rewrite map_map|].
    split; [intros s [= <-]; unfold surface_traces; now rewrite map_map|]. split; [intros f Hf; now rewrite Hku|].
    intros c r f g Hc Hr. pose proof (nth_error_In _ _ Hc) as Hf. pose proof (nth_error_In _ _ Hr) as Hg.
    assert (Hneq : c <> r -> f <> g).
    { intros Hcr ->. apply Hcr. rewrite NoDup_nth_error in Hnd. apply Hnd; [apply nth_error_Some; congruence|congruence]. }
    split.
    + intros Hlt. assert (Hin : In (f, g) (map fst cs)) by (apply Hcp; repeat split; auto; apply Hneq; lia).
      apply in_map_iff in Hin as ([k fig] & Ek & Hin). cbn [fst] in Ek. subst k. destruct (Hcf f g fig Hin) as (<- & <- & _).
      exists (cf_traces fig). unfold contour_traces. apply in_map_iff. now exists ((cf_xtitle fig, cf_ytitle fig), fig).
    + intros Hlt s [= <-]. assert (Hin : In (f, g) (map fst ss)) by (apply Hsp; repeat split; auto; apply Hneq; lia).
      apply in_map_iff in Hin as ([k fig] & Ek & Hin). cbn [fst] in Ek. subst k.
      exists (sf_traces fig). unfold surface_traces. apply in_map_iff. now exists ((f, g), fig).
  - exact Hne.
  - intros d c r f g [= <-] Hlt Hc Hr Hin. unfold surface_traces in Hin. apply in_map_iff in Hin as ([k fig] & Ek & Hin).
    cbn [fst snd] in Ek. injection Ek as -> Etr. destruct (Hsf f g fig Hin) as (_ & _ & Hiff & _).
    apply Hiff in Etr as [e Ee]. assert (Hfg : In (f, g) (map fst ss)) by (apply in_map_iff; now exists ((f, g), fig)).
    apply Hsp in Hfg as (Hf & Hg & Hneq). destruct (Hall f g Hf Hg Hneq) as [den Eden]. congruence.
  - exists us, cs, ss, cells, fm'. repeat split; assumption.
Qed.
Print Assumptions C89_plots_of_the_package.

(** A figure with two factors, without and with surfaces. *)
Example C89_nonvacuous :
  let kdes := [("a", [1]); ("b", [2])] in
  let contours := [(("a", "b"), ([3], ("a", "b")))] in
  figure_factors DefaultOrder ["a"; "b"] ["a"; "b"] /\
  complete_plots nat nat nat kdes contours None ["a"; "b"] /\
  complete_plots nat nat nat kdes contours (Some [(("b", "a"), [])]) ["a"; "b"] /\
  surfaces_estimated nat None ["a"; "b"] /\
  (exists p, plot_setting model2 p no_data (OneTable two_states) (Some ["fac1"; "fac2"]) false ["fac1"; "fac2"]) /\
  (forall f g, In f ["fac1"; "fac2"] -> In g ["fac1"; "fac2"] -> f <> g ->
     exists density, first_value (values_in 1 two_states f) (values_in 1 two_states g) = Ok density).
Proof.
  cbv zeta. split; [reflexivity|].
  assert (G : forall s, s = None \/ s = Some [(("b", "a"), @nil nat)] ->
            complete_plots nat nat nat [("a", [1]); ("b", [2])] [(("a", "b"), ([3], ("a", "b")))] s ["a"; "b"]).
  { intros s Hs. split; [repeat constructor; simpl; intuition discriminate|]. split; [repeat constructor; simpl; tauto|].
    split. { intros d ->. destruct Hs as [Hs|Hs]; [discriminate|]. injection Hs as ->. repeat constructor; simpl; tauto. }
    split; [simpl; tauto|].
    intros [|[|[|c]]] [|[|[|r]]] f g Hc Hr; cbn in Hc, Hr; try discriminate; injection Hc as <-; injection Hr as <-;
      (split; [intros Hlt|intros Hlt d ->]); try (exfalso; lia).
    - exists [3]. now left.
    - destruct Hs as [Hs|Hs]; [discriminate|]. injection Hs as ->. exists []. now left. }
  split; [apply G; now left|]. split; [apply G; now right|]. split; [intros d c r f g [=]|].
  split; [exact two_states_setting|]. intros f g Hf Hg _.
  simpl in Hf, Hg. destruct Hf as [<-|[<-|[]]], Hg as [<-|[<-|[]]]; eexists; reflexivity.
Qed.

(** * C90 *)

(** The mapping of displayed names that the user passes is changed. *)
Theorem C90_mapping_changed_refuted :
  exists kdes contours fm cells fm',
    complete_plots nat nat nat kdes contours None ["a"; "b"] /\
    combine_distribution_plots (S := nat) kdes contours None DefaultOrder (Some fm) true = Ok (cells, Some fm') /\
    fm' <> fm.
Proof.
  destruct C89_nonvacuous as (_ & Hc & _).
  eexists [("a", [1]); ("b", [2])], [(("a", "b"), ([3], ("a", "b")))], [("b", "B")], _, [("b", "B"); ("a", "a")].
  split; [exact Hc|]. split; [|discriminate]. unfold combine_distribution_plots. cbv zeta.
  change (get_ordered_factors DefaultOrder (dkeys [("a", [1]); ("b", [2])])) with ["a"; "b"].
  destruct (default_grid true 2 2) as (g & Eg & Es); [lia|lia|]. cbn [length]. rewrite Eg. cbn [rbind]. rewrite Es. cbn [rbind].
  vm_compute. reflexivity.
Qed.
Print Assumptions C90_mapping_changed_refuted.

(** All that is added are the names of plotted factors for themselves: no entry of the user
    is changed or removed, and nothing is added if there is an entry for all factors. *)
Theorem C90_mapping_kept_partial :
  forall K C S kde_plots contour_plots surface_plots order fm sharey cells fm',
    combine_distribution_plots (K := K) (C := C) (S := S) kde_plots contour_plots surface_plots order (Some fm) sharey
      = Ok (cells, Some fm') ->
    (exists added, fm' = fm ++ added /\
       forall f name, In (f, name) added ->
         name = f /\ In f (map fst kde_plots) /\ forall other, ~ In (f, other) fm) /\
    ((forall f, In f (map fst kde_plots) -> exists name, In (f, name) fm) -> fm' = fm).
Proof.
  intros K C S kdes contours surfaces order fm sharey cells fm' E. unfold combine_distribution_plots in E. cbv zeta in E.
  destruct (get_grid _ _ _) as [g|] eqn:Eg; cbn [rbind] in E; [|discriminate].
  destruct (make_subplots _) as [u|] eqn:Es; cbn [rbind] in E; [|discriminate].
  destruct (mapM _ _) as [cs|] eqn:Em; cbn [rbind] in E; [|discriminate]. injection E as _ <-.
  unfold process_factor_mapping. change (map fst kdes) with (dkeys kdes). generalize (dkeys kdes) as fs. intros fs.
  assert (G : forall fs fm, exists added,
    fold_left (fun d f => if smem f (dkeys d) then d else d ++ [(f, f)]) fs fm = fm ++ added /\
    (forall f name, In (f, name) added -> name = f /\ In f fs /\ forall other, ~ In (f, other) fm)).
  { clear. induction fs as [|f fs IH]; intros fm; cbn [fold_left].
    { exists []. rewrite app_nil_r. split; [reflexivity|intros f name []]. }
    destruct (smem f (dkeys fm)) eqn:Ef.
    - destruct (IH fm) as (added & E & H). exists added. split; [exact E|]. intros g name Hg.
      destruct (H g name Hg) as (H1 & H2 & H3). split; [exact H1|]. split; [now right|exact H3].
    - destruct (IH (fm ++ [(f, f)])) as (added & E & H). exists ((f, f) :: added). split.
      + rewrite E, <- app_assoc. reflexivity.
      + intros g name [Hg|Hg].
        * injection Hg as <- <-. split; [reflexivity|]. split; [now left|]. intros other Hin.
          assert (H0 : In f (dkeys fm)) by (apply in_map_iff; now exists (f, other)). apply smem_In in H0. congruence.
        * destruct (H g name Hg) as (H1 & H2 & H3). split; [exact H1|]. split; [now right|]. intros other Hin.
          apply (H3 other). apply in_or_app. now left. }
  destruct (G fs fm) as (added & -> & H). split.
  - exists added. split; [reflexivity|exact H].
  - intros Hall. destruct added as [|[f name] added]; [apply app_nil_r|]. exfalso.
    destruct (H f name) as (_ & H2 & H3); [now left|]. destruct (Hall f H2) as [n Hn]. now apply (H3 n).
Qed.
Print Assumptions C90_mapping_kept_partial.
