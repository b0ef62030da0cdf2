(** Renaming: the equations, the data and the positions of the parameters. *)
Require Import Reals Qreals String Arith ZArith Bool List Lia FunctionalExtensionality.
From Verif Require Import PyBase ListFacts StringFacts ModelSpec ProcessModel CheckModel SpecModel ProcessModelFacts
  SpecParse SpecIndex IndexFacts SpecFacts ParamsIndex ParseParams ParseFacts AnchorFacts PropsParse ProcessData SpecData DataArrays DataFacts PropsData
  RSum Kalman Likelihood SpecLikelihood ScheduleFacts LikelihoodRun PropsFiltered SpecModelDensity
  TransitionFunctions PropsTransition ModelInputs Runs Related SpecRenaming.
Import ListNotations.
Open Scope R_scope.

Lemma first_appearances_map {A B} (dA : forall x y : A, {x = y} + {x <> y}) (dB : forall x y : B, {x = y} + {x <> y}) (g : A -> B) l :
  (forall x y, In x l -> In y l -> g x = g y -> x = y) ->
  first_appearances dB (map g l) = map g (first_appearances dA l).
Proof.
  induction l as [|x l IH]; intros Hi; [reflexivity|]. cbn [first_appearances map].
  rewrite IH by (intros a b Ha Hb; apply Hi; now right). f_equal.
  assert (G : forall m, (forall y, In y m -> In y l) ->
    filter (fun y => if dB (g x) y then false else true) (map g m) = map g (filter (fun y => if dA x y then false else true) m)).
  { induction m as [|y m IHm]; intros Hm; [reflexivity|]. cbn [map filter].
    rewrite IHm by (intros z Hz; apply Hm; now right).
    destruct (dB (g x) (g y)) as [E|E], (dA x y) as [E'|E']; try reflexivity.
    - destruct E'. apply Hi; [now left|right; apply Hm; now left|exact E].
    - subst y. now destruct E. }
  apply G. intros y Hy. now apply In_first_appearances in Hy.
Qed.

Lemma NoDup_map_same {A B} (f : A -> B) l x y : NoDup (map f l) -> In x l -> In y l -> f x = f y -> x = y.
Proof.
  induction l as [|a l IH]; intros Hnd Hx Hy E; [destruct Hx|]. cbn [map] in Hnd. inversion Hnd as [|? ? Ha Hnd']; subst.
  destruct Hx as [->|Hx], Hy as [->|Hy]; [reflexivity| | |now apply IH].
  - destruct Ha. rewrite E. now apply in_map.
  - destruct Ha. rewrite <- E. now apply in_map.
Qed.

Lemma find_copy outs fo : NoDup (map copy_name outs) -> In fo outs ->
  find (fun fo' => String.eqb (copy_name fo) (copy_name fo')) outs = Some fo.
Proof.
  intros Hnd Hin. destruct (find _ outs) as [fo'|] eqn:E.
  - apply find_some in E as [Hin' E]. apply String.eqb_eq in E. f_equal. symmetry.
    now apply (NoDup_map_same copy_name outs).
  - pose proof (find_none _ _ E fo Hin) as F. cbn beta in F. now rewrite String.eqb_refl in F.
Qed.

Lemma find_no_copy outs v : ~ In v (map copy_name outs) -> find (fun fo => String.eqb v (copy_name fo)) outs = None.
Proof.
  intros Hv. destruct (find _ outs) as [fo|] eqn:E; [|reflexivity]. apply find_some in E as [Hin E].
  apply String.eqb_eq in E. destruct Hv. rewrite E. now apply in_map.
Qed.

(** ** Lists that correspond to each other position by position *)

Definition at_same {A B} (l : list A) (l' : list B) (x : A) (x' : B) : Prop :=
  exists i, nth_error l i = Some x /\ nth_error l' i = Some x'.

Lemma at_same_l {A B} (l m : list A) (l' m' : list B) x x' : at_same l l' x x' -> at_same (l ++ m) (l' ++ m') x x'.
Proof.
  intros (i & A1 & A2). exists i. split; rewrite nth_error_app1; try assumption; apply nth_error_Some; congruence.
Qed.

Lemma at_same_r {A B} (l m : list A) (l' m' : list B) x x' : length l = length l' -> at_same m m' x x' ->
  at_same (l ++ m) (l' ++ m') x x'.
Proof.
  intros E (i & A1 & A2). exists (length l + i)%nat. rewrite E at 2. split; rewrite nth_error_app2 by lia; rewrite Nat.add_comm, Nat.add_sub; assumption.
Qed.

Lemma at_same_map {A B C} (f : C -> A) (g : C -> B) l x : In x l -> at_same (map f l) (map g l) (f x) (g x).
Proof.
  intros Hx. apply In_nth_error in Hx as [i Hi]. exists i. split; now apply map_nth_error.
Qed.

Lemma at_same_flat {C D A B} (f : C -> list A) (g : D -> list B) l l' c d x x' :
  Forall2 (fun c d => length (f c) = length (g d)) l l' -> at_same l l' c d -> at_same (f c) (g d) x x' ->
  at_same (flat_map f l) (flat_map g l') x x'.
Proof.
  intros Hl (i & Hc & Hd) Hx. revert i Hc Hd. induction Hl as [|a b l l' Ha Hl IH]; intros [|i] Hc Hd; try discriminate.
  - cbn in Hc, Hd. injection Hc as ->. injection Hd as ->. cbn [flat_map]. now apply at_same_l.
  - cbn [flat_map]. apply at_same_r; [exact Ha|]. now apply (IH i).
Qed.

Lemma flat_map_lengths {C D A B} (f : C -> list A) (g : D -> list B) l l' :
  Forall2 (fun c d => length (f c) = length (g d)) l l' -> length (flat_map f l) = length (flat_map g l').
Proof. induction 1; [reflexivity|]. cbn [flat_map]. rewrite !app_length. congruence. Qed.

Lemma Forall2_diag {A} (P : A -> A -> Prop) l : (forall x, In x l -> P x x) -> Forall2 P l l.
Proof. induction l; constructor; [apply H; now left|]. apply IHl. intros. apply H. now right. Qed.

Lemma Forall2_maps {A B C} (P : B -> C -> Prop) (f : A -> B) (g : A -> C) l : (forall x, In x l -> P (f x) (g x)) ->
  Forall2 P (map f l) (map g l).
Proof. induction l; constructor; [apply H; now left|]. apply IHl. intros. apply H. now right. Qed.

Lemma at_same_eq {A} (l : list A) x : In x l -> at_same l l x x.
Proof. intros H. apply In_nth_error in H as [i Hi]. now exists i. Qed.

(** ** The renamed model *)

Section Renaming.
  Variables (rho : string -> string) (md : model_dict) (n : nat).
  Hypothesis Hrho : is_renaming rho.
  Let md' := rename_model rho md.
  Hypothesis Hclean : clean_anchoring md.
  Hypothesis Hclean' : clean_anchoring md'.
  Let inj : forall x y, rho x = rho y -> x = y := proj1 Hrho.

  Lemma renamed_latent : latent_of md' = map rho (latent_of md).
  Proof. unfold latent_of, md', rename_model. cbn [md_factors]. now rewrite !map_map. Qed.

  Lemma renamed_observed : observed_of md' = map rho (observed_of md).
  Proof. unfold observed_of, md', rename_model. cbn [md_observed]. now destruct (md_observed md). Qed.

  Lemma renamed_controls : controls_of md' = map rho (controls_of md).
  Proof. unfold controls_of, md', rename_model. cbn [md_controls]. now destruct (md_controls md). Qed.

  Lemma renamed_outcomes : outcomes_of md' = map (rename_outcome rho) (outcomes_of md).
  Proof.
    unfold outcomes_of, md', rename_model. cbn [md_anchoring]. destruct (md_anchoring md) as [a|]; [|reflexivity].
    cbn [option_map rename_anchoring as_outcomes]. now destruct (as_outcomes a).
  Qed.

  Lemma renamed_ignores : ignores_constant md' = ignores_constant md.
  Proof. unfold ignores_constant, md', rename_model. cbn [md_anchoring]. now destruct (md_anchoring md). Qed.

  Lemma renamed_mixtures : n_mixtures_of md' = n_mixtures_of md.
  Proof. reflexivity. Qed.

  Lemma renamed_options : process_estimation_options md' = process_estimation_options md.
  Proof. reflexivity. Qed.

  Lemma renamed_factor f fs : In (f, fs) (md_factors md) -> In (rho f, rename_factor rho fs) (md_factors md').
  Proof. intros H. exact (in_map (fun ffs => (rho (fst ffs), rename_factor rho (snd ffs))) _ _ H). Qed.

  Lemma renamed_measures t f v : measures md t f v -> measures md' t (rho f) (rho v).
  Proof.
    intros (fs & ms & Hf & Hn & Hv). exists (rename_factor rho fs), (map rho ms). split; [now apply renamed_factor|].
    split; [|now apply in_map]. cbn [rename_factor fs_measurements]. now apply map_nth_error.
  Qed.

  Lemma renamed_measures_inv t g w : measures md' t g w -> exists f v, g = rho f /\ w = rho v /\ measures md t f v.
  Proof.
    intros (fs' & ms' & Hf & Hn & Hv). unfold md', rename_model in Hf. cbn [md_factors] in Hf.
    apply in_map_iff in Hf as ([f fs] & [= <- <-] & Hf). cbn [rename_factor fs_measurements] in Hn. rewrite nth_error_map in Hn.
    cbn [snd fst] in *. destruct (nth_error (fs_measurements fs) t) as [ms|] eqn:E; [|discriminate]. injection Hn as <-.
    apply in_map_iff in Hv as (v & <- & Hv). exists f, v. split; [reflexivity|]. split; [reflexivity|]. now exists fs, ms.
  Qed.

  (** The new name of the variable of an equation. *)
  Definition new_name (v : string) : string :=
    match find (fun fo => String.eqb v (copy_name fo)) (outcomes_of md) with
    | Some fo => copy_name (rename_outcome rho fo)
    | None => rho v
    end.

  Lemma copies_distinct : NoDup (map copy_name (outcomes_of md)).
  Proof. apply Hclean. Qed.
  Lemma copies_distinct' : NoDup (map copy_name (outcomes_of md')).
  Proof. apply Hclean'. Qed.

  Lemma new_copy fo : In fo (outcomes_of md) -> new_name (copy_name fo) = copy_name (rename_outcome rho fo).
  Proof. intros H. unfold new_name. now rewrite (find_copy _ _ copies_distinct H). Qed.

  Lemma new_other v : ~ In v (map copy_name (outcomes_of md)) -> new_name v = rho v.
  Proof. intros H. unfold new_name. now rewrite (find_no_copy _ _ H). Qed.

  Lemma measured_not_copy t f v : measures md t f v -> ~ In v (map copy_name (outcomes_of md)).
  Proof.
    intros Hm F. apply in_map_iff in F as ([g o] & <- & Hin). exact (proj2 (proj2 Hclean) t g o f Hin Hm).
  Qed.

  Lemma measured_not_copy' t f v : measures md t f v -> ~ In (rho v) (map copy_name (outcomes_of md')).
  Proof.
    intros Hm F. apply renamed_measures in Hm. apply in_map_iff in F as ([g o] & E & Hin).
    rewrite <- E in Hm. exact (proj2 (proj2 Hclean') t g o (rho f) Hin Hm).
  Qed.

  Lemma copy_in fo : In fo (outcomes_of md) -> In (rename_outcome rho fo) (outcomes_of md').
  Proof. rewrite renamed_outcomes. intros H. exact (in_map (rename_outcome rho) _ _ H). Qed.

  (** What is written down: measurements and copies. *)
  Lemma written_cases t v : In (t, v) (written_equations md n) ->
    (exists f, measures md t f v) \/ exists fo, In fo (outcomes_of md) /\ v = copy_name fo.
  Proof.
    unfold written_equations. intros Hin. apply in_flat_map in Hin as (s & _ & Hin).
    apply in_map_iff in Hin as (w & [= -> ->] & Hw). apply in_app_iff in Hw as [Hw|Hw].
    - left. apply in_flat_map in Hw as ([f fs] & Hf & Hv). cbn [snd] in Hv. exists f, fs.
      destruct (nth_error (fs_measurements fs) t) as [ms|] eqn:E.
      + exists ms. split; [exact Hf|]. split; [reflexivity|]. now rewrite (nth_of_nth_error _ _ _ [] E) in Hv.
      + rewrite nth_overflow in Hv by (now apply nth_error_None). destruct Hv.
    - right. unfold outcomes_of. destruct (md_anchoring md) as [a|]; [|destruct Hw].
      destruct (as_outcomes a) as [outs|]; [|destruct Hw]. apply in_map_iff in Hw as (fo & <- & Hfo). now exists fo.
  Qed.

  Definition rename_equation (e : nat * string) : nat * string := (fst e, new_name (snd e)).

  Lemma written_renamed : written_equations md' n = map rename_equation (written_equations md n).
  Proof.
    unfold written_equations. generalize (seq 0 n) as ts. induction ts as [|t ts IH]; [reflexivity|].
    cbn [flat_map]. rewrite (map_app rename_equation), <- IH. f_equal. rewrite map_map. cbn [rename_equation fst snd].
    rewrite <- (map_map new_name (fun v => (t, v))). f_equal. rewrite map_app. f_equal.
    - transitivity (map rho (flat_map (fun ffs => nth t (fs_measurements (snd ffs)) []) (md_factors md))).
      + unfold md', rename_model. cbn [md_factors]. generalize (md_factors md) as fd. induction fd as [|[f fs] fd IHf]; [reflexivity|].
        cbn [map flat_map snd rename_factor fs_measurements]. rewrite map_app, IHf. f_equal.
        exact (map_nth (map rho) (fs_measurements fs) [] t).
      + apply map_ext_in. intros v Hv. symmetry. apply new_other.
        apply in_flat_map in Hv as ([f fs] & Hf & Hv). cbn [snd] in Hv. apply (measured_not_copy t f). exists fs.
        destruct (nth_error (fs_measurements fs) t) as [ms|] eqn:E.
        * exists ms. split; [exact Hf|]. split; [reflexivity|]. now rewrite (nth_of_nth_error _ _ _ [] E) in Hv.
        * rewrite nth_overflow in Hv by (now apply nth_error_None). destruct Hv.
    - unfold md', rename_model. cbn [md_anchoring]. pose proof new_copy as N. unfold outcomes_of in N.
      destruct (md_anchoring md) as [a|]; [|reflexivity]. cbn [option_map rename_anchoring as_outcomes].
      destruct (as_outcomes a) as [outs|]; [|reflexivity]. cbn [option_map]. rewrite !map_map. apply map_ext_in.
      intros fo Hfo. symmetry. exact (N fo Hfo).
  Qed.

  Lemma new_name_inj t v w : In (t, v) (written_equations md n) -> In (t, w) (written_equations md n) ->
    new_name v = new_name w -> v = w.
  Proof.
    intros Hv Hw. destruct (written_cases t v Hv) as [[f Mv]|(fo & Hfo & ->)], (written_cases t w Hw) as [[g Mw]|(fo' & Hfo' & ->)].
    - rewrite (new_other v (measured_not_copy t f v Mv)), (new_other w (measured_not_copy t g w Mw)). apply inj.
    - rewrite (new_other v (measured_not_copy t f v Mv)), (new_copy fo' Hfo'). intros E.
      destruct (measured_not_copy' t f v Mv). rewrite E. apply in_map. now apply copy_in.
    - rewrite (new_other w (measured_not_copy t g w Mw)), (new_copy fo Hfo). intros E.
      destruct (measured_not_copy' t g w Mw). rewrite <- E. apply in_map. now apply copy_in.
    - rewrite (new_copy fo Hfo), (new_copy fo' Hfo'). intros E.
      pose proof (NoDup_map_same copy_name (outcomes_of md') _ _ copies_distinct' (copy_in fo Hfo) (copy_in fo' Hfo') E) as Eo.
      unfold rename_outcome in Eo. injection Eo as E1 E2. apply inj in E1, E2. destruct fo, fo'; cbn [fst snd] in *. congruence.
  Qed.

  Lemma equations_renamed : equations md' n = map rename_equation (equations md n).
  Proof.
    unfold equations. rewrite written_renamed. apply first_appearances_map. intros [t v] [s w] Hv Hw E.
    injection E as -> E. f_equal. now apply (new_name_inj s).
  Qed.

  Lemma equation_cases t v : In (t, v) (equations md n) ->
    (exists f, measures md t f v) \/ exists fo, In fo (outcomes_of md) /\ v = copy_name fo.
  Proof. unfold equations. rewrite In_first_appearances. apply written_cases. Qed.

  Lemma anchoring_renamed t v : In (t, v) (equations md n) ->
    is_anchoring_equation md' (new_name v) = is_anchoring_equation md v.
  Proof.
    intros Hv. unfold is_anchoring_equation.
    destruct (equation_cases t v Hv) as [[f Mv]|(fo & Hfo & ->)].
    - rewrite (new_other v (measured_not_copy t f v Mv)).
      transitivity false; [|symmetry]; apply not_true_is_false; intros F; apply existsb_exists in F as (x & Hx & E);
        apply String.eqb_eq in E; subst x.
      + exact (measured_not_copy' t f v Mv Hx).
      + exact (measured_not_copy t f v Mv Hx).
    - rewrite (new_copy fo Hfo). transitivity true; [|symmetry]; apply existsb_exists.
      + exists (copy_name (rename_outcome rho fo)). split; [apply in_map; now apply copy_in|apply String.eqb_refl].
      + exists (copy_name fo). split; [now apply in_map|apply String.eqb_refl].
  Qed.

  Hypothesis Hn : has_n_periods md n.
  Hypothesis Hn' : has_n_periods md' n.

  (** A factor enters the renamed equation exactly if it enters the equation. *)
  Lemma involves_renamed t v f : In (t, v) (equations md n) ->
    involves md t f v <-> involves md' t (rho f) (new_name v).
  Proof.
    intros Hv. assert (Ht : (t < n)%nat) by (now apply (ScheduleFacts.equations_period md n t v)). split.
    - intros [Hm|(Hp & o & (a & outs & Ha & Ho & Hin) & Ev)].
      + left. rewrite (new_other v (measured_not_copy t f v Hm)). now apply renamed_measures.
      + right. split; [exists n; now split|]. exists (rho o).
        assert (Hfo : In (f, o) (outcomes_of md)) by (unfold outcomes_of; now rewrite Ha, Ho).
        split; [|subst v; exact (new_copy (f, o) Hfo)].
        exists (rename_anchoring rho a), (map (rename_outcome rho) outs). unfold md', rename_model. cbn [md_anchoring].
        rewrite Ha. cbn [option_map rename_anchoring as_outcomes]. rewrite Ho. split; [reflexivity|]. split; [reflexivity|].
        exact (in_map (rename_outcome rho) _ _ Hin).
    - assert (Out : forall g o, anchored md' g o -> In (g, o) (outcomes_of md')).
      { intros g o (a & outs & Ha & Ho & Hin). unfold outcomes_of. now rewrite Ha, Ho. }
      intros Hi. destruct (equation_cases t v Hv) as [[g Mv]|([g o] & Hfo & ->)].
      + rewrite (new_other v (measured_not_copy t g v Mv)) in Hi. destruct Hi as [Hm|(_ & o & Ho & Ev)].
        * left. apply renamed_measures_inv in Hm as (f0 & v0 & E1 & E2 & Hm). apply inj in E1, E2. congruence.
        * destruct (measured_not_copy' t g v Mv). rewrite Ev. apply in_map_iff. exists (rho f, o). split; [reflexivity|]. now apply Out.
      + rewrite (new_copy (g, o) Hfo) in Hi. destruct Hi as [Hm|(_ & o' & Ho & Ev)].
        * apply renamed_measures_inv in Hm as (f0 & v0 & E1 & E2 & Hm). destruct (measured_not_copy' t f0 v0 Hm). rewrite <- E2.
          apply in_map. exact (copy_in (g, o) Hfo).
        * apply Out in Ho.
          pose proof (NoDup_map_same copy_name (outcomes_of md') _ _ copies_distinct' (copy_in (g, o) Hfo) Ho Ev) as Eo.
          injection Eo as E1 _. apply inj in E1. subst g. right. split; [exists n; now split|]. exists o. split; [|reflexivity].
          unfold outcomes_of in Hfo. destruct (md_anchoring md) as [a|] eqn:Ea; [|destruct Hfo].
          destruct (as_outcomes a) as [outs|] eqn:Eo; [|destruct Hfo]. exists a, outs. now repeat split.
  Qed.

  (** ** Data *)

  Lemma value_renamed df df' lv id t x : renamed_data rho df df' ->
    In x (map copy_name (outcomes_of md)) \/
      (~ In x (map copy_name (outcomes_of md)) /\ ~ In (rho x) (map copy_name (outcomes_of md'))) ->
    value 1 md' df' lv id t (new_name x) = value 1 md df lv id t x.
  Proof.
    intros Hd Hx.
    assert (C : forall y, raw_cells df' lv id t (rho y) = raw_cells df lv id t y).
    { intros y. unfold raw_cells. destruct (nth_error lv t) as [z|]; [|reflexivity].
      destruct Hd as (_ & _ & _ & Hd). induction Hd as [|r r' l l' (E1 & E2 & E3) _ IH]; [reflexivity|]. cbn [find]. rewrite E1, E2.
      destruct (Z.eqb (dr_id r) id && Z.eqb (dr_period r) z)%bool; [apply E3|exact IH]. }
    unfold value, data_value. destruct Hx as [Hx|[Hx Hx']].
    - apply in_map_iff in Hx as (fo & <- & Hfo). rewrite (new_copy fo Hfo).
      rewrite (find_copy _ _ copies_distinct Hfo), (find_copy _ _ copies_distinct' (copy_in fo Hfo)).
      cbn [rename_outcome snd]. apply C.
    - rewrite (new_other x Hx), (find_no_copy _ _ Hx), (find_no_copy _ _ Hx'), C.
      destruct (String.eqb x "constant") eqn:E.
      + apply String.eqb_eq in E. subst x. now rewrite (proj2 Hrho), String.eqb_refl.
      + destruct (String.eqb (rho x) "constant") eqn:E'; [|reflexivity]. apply String.eqb_eq in E'. rewrite <- (proj2 Hrho) in E'.
        apply inj in E'. subst x. discriminate.
  Qed.
End Renaming.
