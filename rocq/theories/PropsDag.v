(** Theorems about the graph of transition functions (C113). *)
Require Import Reals String Arith Bool List Lia Lra.
From Verif Require Import PyBase ListFacts StringFacts ModelSpec ProcessModel CheckModel SpecModel RSum Kalman TransitionFunctions Heatmap Dag SpecDag DagFacts.
Import ListNotations.
Open Scope string_scope.
Open Scope list_scope.
Open Scope nat_scope.

Definition spec_of (md : model_dict) (f : string) : trans_spec :=
  match dget (md_factors md) f with Some fs => fs_transition fs | None => TOther end.

Lemma dag_is_graph nan neg_inf cf md l :
  (forall f, In f (l_latent l) -> exists fs, dget (md_factors md) f = Some fs /\ proper_transition cf (l_all l) f (fs_transition fs)) ->
  get_dag nan neg_inf cf md l = Ok (graph nan neg_inf cf (l_latent l) (l_all l) (spec_of md)).
Proof.
  intros H. unfold get_dag, graph.
  assert (E : mapM (fun f => do fs <- dget_err (md_factors md) f; function_of_spec nan neg_inf cf f (fs_transition fs)) (l_latent l)
              = Ok (map (fun f => [node nan neg_inf cf (spec_of md) f]) (l_latent l))).
  { induction (l_latent l) as [|f fs IH]; [reflexivity|]. cbn [mapM map].
    destruct (H f (or_introl eq_refl)) as (s & Es & Hs).
    assert (N : function_of_spec nan neg_inf cf f (fs_transition s) = Ok [node nan neg_inf cf (spec_of md) f]).
    { assert (Et : fs_transition s = spec_of md f) by (unfold spec_of; now rewrite Es). rewrite Et in Hs |- *.
      apply (node_spec nan neg_inf cf [f] (l_all l) (spec_of md)); [|now left]. intros g [<-|[]]. exact Hs. }
    assert (Ed : dget_err (md_factors md) f = Ok s) by (unfold dget_err; now rewrite Es).
    rewrite Ed. cbn [rbind]. rewrite N. cbn [rbind].
    rewrite IH; [reflexivity|]. intros g Hg. apply H. now right. }
  rewrite E. cbn [rbind]. f_equal. f_equal. clear. induction (l_latent l) as [|f fs IH]; [reflexivity|]. cbn. now rewrite IH.
Qed.

(** * C113 *)

(** The concatenated function of the graph is the transition function of the model, in
    which callables get the parameters under their registered names, the vector of
    states and the states of the factors that they name. *)
Theorem C113_transition_function :
  forall nan neg_inf custom_function md l params states,
    dag_names (l_latent l) (l_all l) ->
    (forall f, In f (l_latent l) -> exists fs,
       dget (md_factors md) f = Some fs /\ proper_transition custom_function (l_all l) f (fs_transition fs)) ->
    (exists f fs, In f (l_latent l) /\ dget (md_factors md) f = Some fs /\ depends_on_states custom_function f (fs_transition fs)) ->
    length states = length (l_all l) ->
    dag_transition nan neg_inf custom_function md l params states
    = transition_function nan neg_inf (call custom_function) md l params states.
Proof.
  intros nan neg_inf cf md l params states (Hb & Hp & Hs) Hspec (f & fs & Hf & Efs & Hd) Hlen.
  unfold dag_transition. rewrite dag_is_graph by exact Hspec. cbn [rbind].
  rewrite (concatenated nan neg_inf cf (l_latent l) (l_all l) Hb (spec_of md)); try assumption.
  - unfold transition_function. apply mapM_ext. intros g Hg. destruct (Hspec g Hg) as (gs & Eg & _).
    unfold dget_err, spec_of. rewrite Eg. reflexivity.
  - intros g Hg. destruct (Hspec g Hg) as (gs & Eg & Hgs). unfold spec_of. now rewrite Eg.
  - intros E. rewrite E in Hf. destruct Hf.
  - apply incl_refl.
  - exists f. split; [exact Hf|]. unfold spec_of. now rewrite Efs.
Qed.
Print Assumptions C113_transition_function.

(** The same for the functions of single factors, which plots use. *)
Theorem C113_individual_functions :
  forall nan neg_inf custom_function md l params states f fs,
    dag_names (l_latent l) (l_all l) ->
    (forall f, In f (l_latent l) -> exists fs,
       dget (md_factors md) f = Some fs /\ proper_transition custom_function (l_all l) f (fs_transition fs)) ->
    In f (l_latent l) -> dget (md_factors md) f = Some fs -> depends_on_states custom_function f (fs_transition fs) ->
    length states = length (l_all l) ->
    dag_individual nan neg_inf custom_function md l f params states
    = individual_function nan neg_inf (call custom_function) md l f params states.
Proof.
  intros nan neg_inf cf md l params states f fs (Hb & Hp & Hs) Hspec Hf Efs Hd Hlen.
  unfold dag_individual. rewrite dag_is_graph by exact Hspec. cbn [rbind].
  pose proof (concatenated nan neg_inf cf (l_latent l) (l_all l) Hb (spec_of md)) as C.
  specialize (C ltac:(intros g Hg; destruct (Hspec g Hg) as (gs & Eg & Hgs); unfold spec_of; now rewrite Eg) Hp Hs params states Hlen [f]).
  specialize (C ltac:(discriminate) ltac:(intros g [<-|[]]; exact Hf)).
  specialize (C ltac:(exists f; split; [now left|]; unfold spec_of; now rewrite Efs)).
  cbn [map] in C. unfold individual_function, dget_err. rewrite Efs. cbn [rbind].
  assert (E : spec_of md f = fs_transition fs) by (unfold spec_of; now rewrite Efs). rewrite <- E.
  cbn [mapM] in C.
  destruct (concatenate_functions (graph nan neg_inf cf (l_latent l) (l_all l) (spec_of md)) [next_name f]) as [func|e] eqn:Ef;
    cbn [rbind] in C |- *.
  - destruct (func (DParams params) (DVec states)) as [values|e] eqn:Ev; cbn [rbind] in C |- *.
    + destruct values as [|v [|w values]].
      * cbn [mapM] in C. destruct (next_state _ _ _ _ _ _ _ _); discriminate.
      * cbn [mapM nth_err nth_error rbind] in C |- *. unfold nth_err. cbn. destruct (as_num v) as [y|e]; cbn [rbind] in C |- *;
          destruct (next_state _ _ _ _ _ _ _ _) as [z|e']; cbn [rbind] in C; congruence.
      * exfalso. unfold concatenate_functions in Ef.
        destruct (forallb _ _); [|discriminate]. match type of Ef with (do free <- ?m; _) = _ => destruct m as [free|]; [|discriminate] end.
        cbn [rbind] in Ef. injection Ef as <-. destruct (bind_inputs _ _ _) as [i|]; [|discriminate]. cbn [rbind mapM] in Ev.
        match type of Ev with (do y <- ?m; _) = _ => destruct m; [|discriminate] end. cbn [rbind] in Ev. discriminate.
    + destruct (next_state _ _ _ _ _ _ _ _) as [z|e']; cbn [rbind] in C; congruence.
  - destruct (next_state _ _ _ _ _ _ _ _) as [z|e']; cbn [rbind] in C; congruence.
Qed.
Print Assumptions C113_individual_functions.

(** What a callable is called with, and that its result is the next state of its factor. *)
Theorem C113_keyword_arguments :
  forall nan neg_inf custom_function md l params states next j f fs fn names c,
    dag_names (l_latent l) (l_all l) ->
    (forall f, In f (l_latent l) -> exists fs,
       dget (md_factors md) f = Some fs /\ proper_transition custom_function (l_all l) f (fs_transition fs)) ->
    (exists f fs, In f (l_latent l) /\ dget (md_factors md) f = Some fs /\ depends_on_states custom_function f (fs_transition fs)) ->
    length states = length (l_all l) ->
    dag_transition nan neg_inf custom_function md l params states = Ok next ->
    nth_error (l_latent l) j = Some f -> dget (md_factors md) f = Some fs -> fs_transition fs = TFun fn (Some names) ->
    NoDup names -> dget params f = Some c -> length c = length names ->
    exists named env kwargs y,
      (forall i name x, nth_error names i = Some name -> nth_error c i = Some x -> dget named name = Some x) /\
      (forall k g x, nth_error (l_all l) k = Some g -> nth_error states k = Some x -> dget env g = Some x) /\
      keyword_arguments (custom_function f) named env states kwargs /\
      df_body (custom_function f) kwargs = Ok (DNum y) /\ nth_error next j = Some y.
Proof.
  intros nan neg_inf cf md l params states next j f fs fn names c Hn Hspec Hdep Hlen Hok Hj Efs Et Hnd Ec Hlc.
  rewrite C113_transition_function in Hok by assumption. destruct Hn as ((Hndall & Hincl & _) & Hp & Hs).
  unfold transition_function in Hok. destruct (mapM_nth_error _ _ _ _ _ Hok Hj) as (y & Hy & Ey).
  cbv beta in Ey. unfold dget_err at 1 in Ey. rewrite Efs in Ey. cbn [rbind] in Ey. rewrite Et in Ey. cbn [next_state] in Ey.
  unfold dget_err in Ey. rewrite Ec in Ey. cbn [rbind] in Ey. unfold call in Ey.
  set (named := dict_of (combine names c)) in *. set (env := factor_states (l_all l) states) in *.
  set (kwargs := map _ _) in Ey.
  assert (Hn : forall i name x, nth_error names i = Some name -> nth_error c i = Some x -> dget named name = Some x).
  { intros i name x H1 H2. unfold named, dict_of. apply In_dget.
    - unfold dkeys. rewrite map_rev. apply NoDup_rev. rewrite PropsLikelihood.map_fst_combine by congruence. exact Hnd.
    - rewrite <- in_rev. apply (nth_error_In _ i). apply nth_error_combine. now split. }
  assert (He : forall k g x, nth_error (l_all l) k = Some g -> nth_error states k = Some x -> dget env g = Some x).
  { intros i name x H1 H2. unfold env, factor_states, dict_of. apply In_dget.
    - unfold dkeys. rewrite map_rev. apply NoDup_rev. rewrite PropsLikelihood.map_fst_combine by congruence. exact Hndall.
    - rewrite <- in_rev. apply (nth_error_In _ i). apply nth_error_combine. now split. }
  exists named, env, kwargs, y. split; [exact Hn|]. split; [exact He|]. split; [|split; [|exact Hy]].
  - split; [unfold kwargs; rewrite map_map; cbn; apply map_id|].
    intros a v Hin. unfold kwargs in Hin. apply in_map_iff in Hin as (b & [= <- <-] & Hb).
    split; [intros ->; now rewrite String.eqb_refl|]. split.
    + intros ->. reflexivity.
    + intros H1 H2. rewrite (proj2 (String.eqb_neq b "params") H1), (proj2 (String.eqb_neq b "states") H2).
      destruct (Hspec f (nth_error_In _ _ Hj)) as (fs' & Efs' & Hpr). rewrite Efs in Efs'. injection Efs' as <-.
      rewrite Et in Hpr. destruct fn; [|destruct Hpr]. destruct Hpr as (_ & _ & Hargs & _).
      destruct (Hargs b Hb) as [?|[?|Hall]]; try congruence. apply In_nth_error in Hall as [k Hk].
      destruct (nth_error states k) as [x|] eqn:Ex; [|apply nth_error_None in Ex; assert (k < length (l_all l)) by (apply nth_error_Some; congruence); lia].
      rewrite (He k b x Hk Ex). now exists x.
  - destruct (df_body (cf f) kwargs) as [v|]; [|discriminate]. cbn [rbind] in Ey. destruct v; try discriminate. now injection Ey as ->.
Qed.
Print Assumptions C113_keyword_arguments.

Lemma concatenate_ok functions targets func p s values :
  concatenate_functions functions targets = Ok func -> func p s = Ok values ->
  exists free inputs, mapM (free_arguments (S (length functions)) functions) targets = Ok free /\
    bind_inputs (concat free) p s = Ok inputs /\
    mapM (evaluate (S (length functions)) functions inputs) targets = Ok values.
Proof.
  unfold concatenate_functions. destruct (forallb _ _); [|discriminate].
  destruct (mapM (free_arguments _ _) targets) as [free|]; [|discriminate]. cbn [rbind]. intros [= <-] H.
  destruct (bind_inputs (concat free) p s) as [inputs|] eqn:E; [|discriminate]. cbn [rbind] in H. now exists free, inputs.
Qed.

Lemma mapM_keys {B} (g : string -> result B) l ys a : mapM g l = Ok ys -> ~ In a l -> dget (combine l ys) a = None.
Proof.
  intros _ H. apply dget_None. unfold dkeys. intros Hin. apply H. clear -Hin. revert ys Hin.
  induction l as [|b l IH]; intros [|y ys] Hin; cbn in *; try tauto. destruct Hin as [Hin|Hin]; [now left|right; now apply (IH ys)].
Qed.

Definition custom_spec (md : model_dict) (f : string) (names : list string) : Prop :=
  exists fs fn, dget (md_factors md) f = Some fs /\ fs_transition fs = TFun (Some fn) (Some names).

(** A graph in which the callable of factor [f] is used. *)
Lemma dag_is_graph' nan neg_inf cf md l d :
  get_dag nan neg_inf cf md l = Ok d -> (forall f, In f (l_latent l) -> spec_of md f <> TOther) ->
  d = graph nan neg_inf cf (l_latent l) (l_all l) (spec_of md).
Proof.
  intros H Ho. unfold get_dag in H.
  destruct (mapM _ (l_latent l)) as [funcs|] eqn:E; [|discriminate]. cbn [rbind] in H. injection H as <-.
  unfold graph. f_equal. revert funcs E. induction (l_latent l) as [|f fs IH]; intros funcs E; cbn [mapM] in E.
  - now injection E as <-.
  - destruct (dget_err (md_factors md) f) as [s|] eqn:Ed; [|discriminate]. cbn [rbind] in E.
    destruct (function_of_spec nan neg_inf cf f (fs_transition s)) as [x|] eqn:Ex; [|discriminate]. cbn [rbind] in E.
    destruct (mapM _ fs) as [xs|] eqn:Exs; [|discriminate]. cbn [rbind] in E. injection E as <-.
    cbn [concat map]. rewrite (IH (fun g Hg => Ho g (or_intror Hg)) xs eq_refl).
    assert (Es : spec_of md f = fs_transition s).
    { unfold spec_of. unfold dget_err in Ed. destruct (dget (md_factors md) f); [|discriminate]. now injection Ed as ->. }
    pose proof (Ho f (or_introl eq_refl)) as Hf. unfold node. rewrite Es in *.
    destruct (fs_transition s) as [str|[fn|] [names|]|]; cbn in Ex; try discriminate; try congruence.
    + destruct (tf_of_string str); [|discriminate]. now injection Ex as <-.
    + now injection Ex as <-.
Qed.

(** A callable that does not take [params] makes the transition function fail. *)
Theorem C113_callables_take_params :
  forall nan neg_inf custom_function md l params states f names next,
    factor_names (l_latent l) (l_all l) ->
    (forall g fs, In g (l_latent l) -> dget (md_factors md) g = Some fs -> fs_transition fs <> TOther) ->
    In f (l_latent l) -> custom_spec md f names -> ~ In "params" (df_args (custom_function f)) ->
    dag_transition nan neg_inf custom_function md l params states <> Ok next.
Proof.
  intros nan neg_inf cf md l params states f names next Hb Ho Hf (fs & fn & Efs & Et) Hno H.
  unfold dag_transition in H. destruct (get_dag nan neg_inf cf md l) as [d|] eqn:Ed; [|discriminate]. cbn [rbind] in H.
  destruct (concatenate_functions d (map next_name (l_latent l))) as [func|] eqn:Ef; [|discriminate]. cbn [rbind] in H.
  destruct (func (DParams params) (DVec states)) as [values|] eqn:Ev; [|discriminate]. clear H.
  destruct (concatenate_ok _ _ _ _ _ _ Ef Ev) as (free & inputs & _ & _ & E).
  pose proof (fun Hne => dag_is_graph' nan neg_inf cf md l d Ed Hne) as G.
  specialize (G ltac:(intros g Hg; unfold spec_of; destruct (dget (md_factors md) g) as [gs|] eqn:Eg;
    [now apply (Ho g gs)|exfalso; unfold get_dag in Ed;
     destruct (mapM _ (l_latent l)) as [ys|] eqn:Em in Ed; [|discriminate];
     apply In_nth_error in Hg as [k Hk]; destruct (mapM_nth_error _ _ _ _ _ Em Hk) as (y & _ & Ey);
     cbv beta in Ey; unfold dget_err in Ey; rewrite Eg in Ey; discriminate])).
  apply In_nth_error in Hf as Hk. destruct Hk as [k Hk].
  assert (Hk' : nth_error (map next_name (l_latent l)) k = Some (next_name f)) by (rewrite nth_error_map, Hk; reflexivity).
  destruct (mapM_nth_error _ _ _ _ _ E Hk') as (v & _ & Ey). rewrite evaluate_S in Ey.
  rewrite G in Ey at 1. rewrite (graph_next nan neg_inf cf (l_latent l) (l_all l) Hb (spec_of md) f Hf) in Ey.
  assert (En : node nan neg_inf cf (spec_of md) f = with_params (fun v => do c <- select_key f v; with_names names c) (cf f)).
  { unfold node, spec_of. rewrite Efs, Et. reflexivity. }
  rewrite En in Ey. cbn [df_args df_body with_params] in Ey.
  destruct (mapM _ (df_args (cf f))) as [ys|] eqn:Eys; [|discriminate]. cbn [rbind] in Ey.
  unfold dget_err in Ey. rewrite (mapM_keys _ _ _ _ Eys Hno) in Ey. discriminate.
Qed.
Print Assumptions C113_callables_take_params.

(** A callable that takes nothing but [params] makes the function of its factor fail,
    which plots need. *)
Theorem C113_individual_needs_states :
  forall nan neg_inf custom_function md l params states f names y,
    dag_names (l_latent l) (l_all l) ->
    (forall g fs, In g (l_latent l) -> dget (md_factors md) g = Some fs -> fs_transition fs <> TOther) ->
    In f (l_latent l) -> custom_spec md f names -> df_args (custom_function f) = ["params"] ->
    dag_individual nan neg_inf custom_function md l f params states <> Ok y.
Proof.
  intros nan neg_inf cf md l params states f names y (Hb & Hp & Hs) Ho Hf (fs & fn & Efs & Et) Hargs H.
  unfold dag_individual in H. destruct (get_dag nan neg_inf cf md l) as [d|] eqn:Ed; [|discriminate]. cbn [rbind] in H.
  destruct (concatenate_functions d [next_name f]) as [func|] eqn:Ef; [|discriminate]. cbn [rbind] in H.
  destruct (func (DParams params) (DVec states)) as [values|] eqn:Ev; [|discriminate]. clear H.
  destruct (concatenate_ok _ _ _ _ _ _ Ef Ev) as (free & inputs & E & Eb & _).
  assert (G : d = graph nan neg_inf cf (l_latent l) (l_all l) (spec_of md)).
  { apply (dag_is_graph' nan neg_inf cf md l d Ed). intros g Hg. unfold spec_of. destruct (dget (md_factors md) g) as [gs|] eqn:Eg;
    [now apply (Ho g gs)|exfalso; unfold get_dag in Ed;
     destruct (mapM _ (l_latent l)) as [ys|] eqn:Em in Ed; [|discriminate];
     apply In_nth_error in Hg as [k Hk]; destruct (mapM_nth_error _ _ _ _ _ Em Hk) as (z & _ & Ey);
     cbv beta in Ey; unfold dget_err in Ey; rewrite Eg in Ey; discriminate]. }
  cbn [mapM] in E. rewrite free_S in E. rewrite G in E at 1.
  rewrite (graph_next nan neg_inf cf (l_latent l) (l_all l) Hb (spec_of md) f Hf) in E.
  assert (En : node nan neg_inf cf (spec_of md) f = with_params (fun v => do c <- select_key f v; with_names names c) (cf f)).
  { unfold node, spec_of. rewrite Efs, Et. reflexivity. }
  rewrite En in E. cbn [df_args with_params] in E. rewrite Hargs in E. cbn [mapM] in E.
  assert (Ep : free_arguments (length d) d "params" = Ok ["params"]).
  { generalize (length d). rewrite G. intros [|n]; cbn [free_arguments];
      rewrite (graph_other nan neg_inf cf (l_latent l) (l_all l) (spec_of md) "params" Hp) by (intros g; discriminate); reflexivity. }
  rewrite Ep in E. cbn in E. injection E as <-. discriminate Eb.
Qed.
Print Assumptions C113_individual_needs_states.

Lemma state_cycle nan neg_inf cf latent all spec :
  factor_names latent all -> In "states" all ->
  forall n, free_arguments n (graph nan neg_inf cf latent all spec) "states" = Err DagError.
Proof.
  intros Hb Hin n. apply In_nth_error in Hin as [k Hk]. induction n as [|n IH]; cbn [free_arguments];
    rewrite (graph_factor nan neg_inf cf latent all Hb spec k "states" Hk); [reflexivity|].
  cbn [df_args extract_factor mapM]. rewrite IH. reflexivity.
Qed.

(** Factors must not be called [states] or [params]. *)
Theorem C113_reserved_names :
  forall nan neg_inf custom_function md l params states next,
    factor_names (l_latent l) (l_all l) ->
    (forall f, In f (l_latent l) -> exists fs,
       dget (md_factors md) f = Some fs /\ proper_transition custom_function (l_all l) f (fs_transition fs)) ->
    (exists f fs, In f (l_latent l) /\ dget (md_factors md) f = Some fs /\ depends_on_states custom_function f (fs_transition fs)) ->
    In "states" (l_all l) \/ In "params" (l_all l) ->
    dag_transition nan neg_inf custom_function md l params states <> Ok next.
Proof.
  intros nan neg_inf cf md l params states next Hb Hspec (f & fs & Hf & Efs & Hd) Hres H.
  unfold dag_transition in H. rewrite dag_is_graph in H by exact Hspec. cbn [rbind] in H.
  set (d := graph _ _ _ _ _ _) in H.
  destruct (concatenate_functions d (map next_name (l_latent l))) as [func|] eqn:Ef; [|discriminate]. cbn [rbind] in H.
  destruct (func (DParams params) (DVec states)) as [values|] eqn:Ev; [|discriminate]. clear H.
  destruct (concatenate_ok _ _ _ _ _ _ Ef Ev) as (free & inputs & E & Eb & _).
  assert (Hargs : forall g, In g (l_latent l) -> exists gs, dget (md_factors md) g = Some gs /\
     (depends_on_states cf g (fs_transition gs) ->
        exists a, In a (node_args nan neg_inf cf (spec_of md) g) /\ (a = "states" \/ In a (l_all l)) /\ (a <> "params" \/ In g (l_all l) /\ a = g)) /\
     forall a, In a (node_args nan neg_inf cf (spec_of md) g) -> a = "params" \/ a = "states" \/ In a (l_all l)).
  { intros g Hg. destruct (Hspec g Hg) as (gs & Eg & Hgs). exists gs. split; [exact Eg|].
    assert (Hga : In g (l_all l)) by (now apply Hb).
    unfold node_args, node, spec_of. rewrite Eg. destruct (fs_transition gs) as [s|[n|] [names|]|]; cbn in Hgs; try contradiction.
    - destruct Hgs as [t ->]. split.
      + intros _. destruct t; try (exists "states"; split; [now left|]; split; [now left|left; discriminate]).
        exists g. split; [now left|]. split; [now right|]. right. now split.
      + intros a Ha. destruct t; cbn in Ha; destruct Ha as [<-|[<-|[]]]; auto.
    - destruct Hgs as (H1 & _ & H2 & _). split.
      + intros (a & Ha & Hap). exists a. split; [exact Ha|]. split; [|now left]. destruct (H2 a Ha) as [->|H]; [congruence|exact H].
      + exact H2. }
  destruct (in_dec string_dec "states" (l_all l)) as [Hin|Hout].
  - (* a cycle *)
    destruct (Hargs f Hf) as (gs & Eg & Ha & _). rewrite Efs in Eg. injection Eg as <-. destruct (Ha Hd) as (a & Hin' & Hcase & _).
    apply In_nth_error in Hf as Hk. destruct Hk as [k Hk].
    assert (Hk' : nth_error (map next_name (l_latent l)) k = Some (next_name f)) by (rewrite nth_error_map, Hk; reflexivity).
    destruct (mapM_nth_error _ _ _ _ _ E Hk') as (ls & _ & Els). rewrite free_S in Els.
    unfold d in Els at 1. rewrite (graph_next nan neg_inf cf (l_latent l) (l_all l) Hb (spec_of md) f Hf) in Els.
    fold (node_args nan neg_inf cf (spec_of md) f) in Els.
    destruct (mapM _ (node_args _ _ _ _ _)) as [xs|] eqn:Exs; [|discriminate].
    apply In_nth_error in Hin' as [i Hi]. destruct (mapM_nth_error _ _ _ _ _ Exs Hi) as (x & _ & Ex).
    destruct Hcase as [->|Hall].
    + unfold d in Ex. rewrite (state_cycle nan neg_inf cf (l_latent l) (l_all l) (spec_of md) Hb Hin) in Ex. discriminate.
    + apply In_nth_error in Hall as [m Hm]. destruct (length d); cbn [free_arguments] in Ex; unfold d in Ex at 1;
        rewrite (graph_factor nan neg_inf cf (l_latent l) (l_all l) Hb (spec_of md) m a Hm) in Ex; [discriminate|].
      cbn [df_args extract_factor mapM] in Ex. unfold d in Ex.
      rewrite (state_cycle nan neg_inf cf (l_latent l) (l_all l) (spec_of md) Hb Hin) in Ex. discriminate.
  - (* only the states are inputs *)
    destruct Hres as [Hin|Hin]; [now elim Hout|].
    assert (G : forall x, In x (concat free) -> x = "states").
    { intros x Hx. apply in_concat in Hx as (ls & Hls & Hx). apply In_nth_error in Hls as [k Hk].
      apply mapM_ok in E. destruct (PropsHeatmapFigure.Forall2_nth_error2 _ _ _ _ _ E Hk) as (t & Ht & Et).
      rewrite nth_error_map in Ht. destruct (nth_error (l_latent l) k) as [g|] eqn:Eg; [|discriminate]. injection Ht as <-.
      apply nth_error_In in Eg. rewrite free_S in Et. unfold d in Et at 1.
      rewrite (graph_next nan neg_inf cf (l_latent l) (l_all l) Hb (spec_of md) g Eg) in Et.
      fold (node_args nan neg_inf cf (spec_of md) g) in Et.
      destruct (mapM _ (node_args _ _ _ _ _)) as [xs|] eqn:Exs; [|discriminate]. cbn [rbind] in Et. injection Et as <-.
      apply in_concat in Hx as (ys & Hys & Hx). apply In_nth_error in Hys as [i Hi]. apply mapM_ok in Exs.
      destruct (PropsHeatmapFigure.Forall2_nth_error2 _ _ _ _ _ Exs Hi) as (a & Ha & Ea). apply nth_error_In in Ha.
      destruct (Hargs g Eg) as (gs & _ & _ & Hall). specialize (Hall a Ha).
      assert (Hns : forall n, free_arguments n d "states" = Ok ["states"]).
      { intros n. destruct n; cbn [free_arguments]; unfold d at 1;
          rewrite (graph_other nan neg_inf cf (l_latent l) (l_all l) (spec_of md) "states" Hout) by (intros h; discriminate); reflexivity. }
      assert (Hcase : a = "states" \/ In a (l_all l)) by (destruct Hall as [->|Hall]; [now right|exact Hall]).
      destruct Hcase as [->|Ha'].
      - rewrite Hns in Ea. injection Ea as <-. destruct Hx as [<-|[]]. reflexivity.
      - apply In_nth_error in Ha' as [m Hm]. destruct (length d); cbn [free_arguments] in Ea; unfold d in Ea at 1;
          rewrite (graph_factor nan neg_inf cf (l_latent l) (l_all l) Hb (spec_of md) m a Hm) in Ea; [discriminate|].
        cbn [df_args extract_factor mapM] in Ea. rewrite Hns in Ea. cbn in Ea. injection Ea as <-. destruct Hx as [<-|[]]. reflexivity. }
    unfold bind_inputs in Eb. pose proof (NoDup_nodup string_dec (concat free)) as Hnd.
    assert (G' : forall x, In x (nodup string_dec (concat free)) -> x = "states") by (intros x Hx; apply nodup_In in Hx; now apply G).
    destruct (nodup string_dec (concat free)) as [|a [|b [|c r]]]; try discriminate.
    assert (a = "states") by (apply G'; now left). assert (b = "states") by (apply G'; right; now left). subst.
    inversion Hnd as [|? ? Hno _]; subst. apply Hno. now left.
Qed.
Print Assumptions C113_reserved_names.

(** A callable of the parameters and the observed factor of the example model. *)
Definition plain_callable : dfunc :=
  mk_dfunc ["inc"; "params"] (fun kwargs =>
    match dget kwargs "params", dget kwargs "inc" with
    | Some (DNamed d), Some (DNum x) => do q <- dget_err d "q"; Ok (DNum (q * x)%R)
    | _, _ => Err TypeError
    end).

Example C113_nonvacuous :
  let l := p_labels PropsLikelihood.single_p in
  let md := PropsLikelihood.single_model in
  let custom := fun _ : string => plain_callable in
  dag_names (l_latent l) (l_all l) /\
  (forall f, In f (l_latent l) -> exists fs,
     dget (md_factors md) f = Some fs /\ proper_transition custom (l_all l) f (fs_transition fs)) /\
  (forall f fs, In f (l_latent l) -> dget (md_factors md) f = Some fs -> depends_on_states custom f (fs_transition fs)) /\
  (exists names, custom_spec md "soc" names) /\
  dag_individual 0%R 0%R custom md l "soc" [("soc", [1%R; 2%R])] [7%R; 8%R; 9%R] = Ok (2 * 9)%R.
Proof.
  assert (El : l_latent (p_labels PropsLikelihood.single_p) = ["cog"; "soc"]) by (vm_compute; reflexivity).
  assert (Ea : l_all (p_labels PropsLikelihood.single_p) = ["cog"; "soc"; "inc"]) by (vm_compute; reflexivity).
  assert (Hc : exists fs, dget (md_factors PropsLikelihood.single_model) "cog" = Some fs /\ fs_transition fs = TStr "translog")
    by (eexists; split; reflexivity).
  assert (Hs : exists fs fn names, dget (md_factors PropsLikelihood.single_model) "soc" = Some fs /\ fs_transition fs = TFun (Some fn) (Some names))
    by (do 3 eexists; split; reflexivity).
  destruct Hc as (cs & Ec & Tc), Hs as (ss & fn & names & Es & Ts).
  assert (N : dag_names ["cog"; "soc"] ["cog"; "soc"; "inc"]).
  { split; [split; [|split; [|split]]|split].
    - repeat constructor; cbn; intuition discriminate.
    - intros x [<-|[<-|[]]]; cbn; auto.
    - repeat constructor; cbn; intuition discriminate.
    - intros f Hf [H|[H|[H|[]]]]; discriminate H.
    - cbn. intuition discriminate.
    - cbn. intuition discriminate. }
  assert (P : forall f, In f ["cog"; "soc"] -> exists fs,
     dget (md_factors PropsLikelihood.single_model) f = Some fs /\
     proper_transition (fun _ => plain_callable) ["cog"; "soc"; "inc"] f (fs_transition fs)).
  { intros f [<-|[<-|[]]].
    - exists cs. split; [exact Ec|]. rewrite Tc. eexists. reflexivity.
    - exists ss. split; [exact Es|]. rewrite Ts. split; [right; now left|]. split; [repeat constructor; cbn; intuition discriminate|].
      split; [intros a [<-|[<-|[]]]; cbn; tauto|]. intros kwargs v H. cbn in H.
      destruct (dget kwargs "params") as [[]|]; try discriminate. destruct (dget kwargs "inc") as [[]|]; try discriminate.
      destruct (dget_err d "q"); [|discriminate]. cbn in H. injection H as <-. eauto. }
  assert (D : forall f fs, In f ["cog"; "soc"] -> dget (md_factors PropsLikelihood.single_model) f = Some fs ->
     depends_on_states (fun _ => plain_callable) f (fs_transition fs)).
  { intros f fs [<-|[<-|[]]] Ef; rewrite ?Ec, ?Es in Ef; injection Ef as <-; rewrite ?Tc, ?Ts; cbn; auto.
    exists "inc". split; [now left|discriminate]. }
  cbv zeta. rewrite El, Ea. split; [exact N|]. split; [exact P|]. split; [exact D|].
  split; [exists names, ss, fn; now split|].
  rewrite (C113_individual_functions 0%R 0%R (fun _ => plain_callable) PropsLikelihood.single_model (p_labels PropsLikelihood.single_p)
             [("soc", [1%R; 2%R])] [7%R; 8%R; 9%R] "soc" ss); rewrite ?El, ?Ea; try assumption; try reflexivity.
  - right. now left.
  - apply (D "soc" ss); [right; now left|exact Es].
Qed.

(** Models in which a factor is called [states], and in which a callable only takes its
    parameters or none. *)
Definition one_factor (name : string) (spec : trans_spec) : model_dict :=
  mk_md [(name, mk_factor [["m"]; ["m"]] spec None)] None None None None None.
Definition one_labels (name : string) : labels := mk_labels [name] [] [] [0; 1] [0%Z] [0%Z].
Definition no_states : dfunc := mk_dfunc ["params"] (fun _ => Ok (DNum 1%R)).
Definition no_params : dfunc := mk_dfunc ["fac"] (fun _ => Ok (DNum 1%R)).

Example C113_failures_nonvacuous :
  (factor_names ["states"] ["states"] /\
   (forall f, In f (l_latent (one_labels "states")) -> exists fs,
      dget (md_factors (one_factor "states" (TStr "linear"))) f = Some fs /\
      proper_transition (fun _ => no_states) ["states"] f (fs_transition fs))) /\
  (dag_names ["fac"] ["fac"] /\ custom_spec (one_factor "fac" (TFun (Some "g") (Some ["q"]))) "fac" ["q"]) /\
  df_args no_states = ["params"] /\ ~ In "params" (df_args no_params).
Proof.
  assert (G : forall s, s = "states" \/ s = "fac" -> factor_names [s] [s]).
  { intros s Hs. split; [repeat constructor; intros []|]. split; [apply incl_refl|]. split; [repeat constructor; intros []|].
    intros f [<-|[]] [H|[]]. destruct Hs; subst; discriminate. }
  split; [split; [apply G; now left|]|split; [split|split; [reflexivity|]]].
  - intros f [<-|[]]. eexists. split; [reflexivity|]. now eexists.
  - split; [apply G; now right|]. split; intros [H|[]]; discriminate.
  - do 2 eexists. split; reflexivity.
  - intros [H|[]]. discriminate.
Qed.
