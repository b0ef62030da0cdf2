(** Evaluation of the graph of transition functions. *)
Require Import Reals String Arith Bool List Lia.
From Verif Require Import PyBase ListFacts StringFacts ModelSpec ProcessModel RSum Kalman PropsLikelihood TransitionFunctions Heatmap PropsHeatmapFigure Dag SpecDag.
Import ListNotations.
Open Scope string_scope.
Open Scope list_scope.
Open Scope nat_scope.

Lemma next_name_inj f g : next_name f = next_name g -> f = g.
Proof. unfold next_name. intros H. cbn [append] in H. injection H as H. now apply append_inj_r in H. Qed.

Lemma next_not_params f : next_name f <> "params".
Proof. discriminate. Qed.
Lemma next_not_states f : next_name f <> "states".
Proof. discriminate. Qed.

(** Lookup in a dictionary to which entries are added one after the other. *)
Lemma dget_fold_other {V} (h : nat -> V) l : forall d g, ~ In g (map snd l) ->
  dget (fold_left (fun d (kv : nat * string) => dset d (snd kv) (h (fst kv))) l d) g = dget d g.
Proof.
  induction l as [|[k f] l IH]; intros d g Hg; [reflexivity|]. cbn [fold_left map snd fst In] in *.
  rewrite IH by tauto. rewrite dget_dset. destruct (String.eqb_spec f g); [subst; tauto|reflexivity].
Qed.
Lemma dget_fold_entry {V} (h : nat -> V) l : forall d k g, NoDup (map snd l) -> In (k, g) l ->
  dget (fold_left (fun d (kv : nat * string) => dset d (snd kv) (h (fst kv))) l d) g = Some (h k).
Proof.
  induction l as [|[j f] l IH]; intros d k g Hnd Hin; [destruct Hin|]. cbn [fold_left map snd fst] in *.
  inversion Hnd as [|? ? Hf Hnd']; subst. destruct Hin as [[= -> ->]|Hin].
  - rewrite dget_fold_other by exact Hf. rewrite dget_dset, String.eqb_refl. reflexivity.
  - now apply IH.
Qed.

Lemma snd_enumerate {A} (l : list A) : map snd (enumerate l) = l.
Proof. unfold enumerate. rewrite map_snd_combine; now rewrite ?seq_length. Qed.

Lemma In_enumerate_nth {A} (l : list A) i x : nth_error l i = Some x -> In (i, x) (enumerate l).
Proof.
  intros H. unfold enumerate. apply (nth_error_In _ i). assert (Hi : i < length l) by (apply nth_error_Some; congruence).
  apply nth_error_combine. split; [|exact H].
  rewrite (nth_error_nth' _ 0) by (rewrite seq_length; exact Hi). now rewrite seq_nth.
Qed.

(** Two distinct names. *)
Lemma bind_two free p s : (forall x, In x free <-> x = "params" \/ x = "states") ->
  bind_inputs free p s = Ok [("params", p); ("states", s)].
Proof.
  intros H. unfold bind_inputs. pose proof (NoDup_nodup string_dec free) as Hnd.
  assert (G : forall x, In x (nodup string_dec free) <-> x = "params" \/ x = "states") by (intros x; now rewrite nodup_In).
  destruct (nodup string_dec free) as [|a [|b [|c l]]].
  - destruct (proj2 (G "params")); now left.
  - destruct (proj2 (G "params") (or_introl eq_refl)) as [->|[]].
    destruct (proj2 (G "states") (or_intror eq_refl)) as [H'|[]]; discriminate.
  - inversion Hnd as [|? ? Ha _]; subst.
    destruct (proj1 (G a)) as [->| ->], (proj1 (G b)) as [->| ->]; cbn; auto; elim Ha; now left.
  - exfalso. inversion Hnd as [|? ? Ha Hnd']; subst. inversion Hnd' as [|? ? Hb Hnd'']; subst.
    destruct (proj1 (G a)) as [->| ->], (proj1 (G b)) as [->| ->], (proj1 (G c)) as [->| ->];
      try (now left); try (right; now left); try (right; right; now left); cbn in *; tauto.
Qed.

Section Facts.
  Variables nan neg_inf : R.
  Variable cf : string -> dfunc.
  Variables (latent all : list string).
  Hypothesis Hbase : factor_names latent all.
  Variable spec : string -> trans_spec.
  Hypothesis Hspec : forall f, In f latent -> proper_transition cf all f (spec f).

  (** The function of a factor. *)
  Definition node (f : string) : dfunc :=
    match spec f with
    | TStr s =>
        match tf_of_string s with
        | Some t => with_params (select_key f)
                      (match t with TfConstant => rename_argument "state" f (builtin nan neg_inf t) | _ => builtin nan neg_inf t end)
        | None => mk_dfunc [] (fun _ => Err KeyError)
        end
    | TFun _ (Some names) => with_params (fun v => do c <- select_key f v; with_names names c) (cf f)
    | _ => mk_dfunc [] (fun _ => Err KeyError)
    end.

  Lemma node_spec f : In f latent -> function_of_spec nan neg_inf cf f (spec f) = Ok [node f].
  Proof.
    intros Hf. pose proof (Hspec f Hf) as H. unfold node. destruct (spec f) as [s|[fn|] [names|]|]; cbn in H; try contradiction.
    - destruct H as [t Et]. unfold function_of_spec. rewrite Et. reflexivity.
    - reflexivity.
  Qed.

  Definition graph : dict dfunc := dag_functions latent all (map node latent).

  Lemma graph_factor k g : nth_error all k = Some g -> dget graph g = Some (extract_factor k).
  Proof.
    intros H. unfold graph, dag_functions. apply (dget_fold_entry extract_factor).
    - rewrite snd_enumerate. apply Hbase.
    - now apply In_enumerate_nth.
  Qed.

  Lemma graph_next f : In f latent -> dget graph (next_name f) = Some (node f).
  Proof.
    intros H. unfold graph, dag_functions. destruct Hbase as (_ & _ & Hl & Hn).
    rewrite dget_fold_other by (rewrite snd_enumerate; now apply Hn).
    assert (E : combine (map next_name latent) (map node latent) = map (fun f => (next_name f, node f)) latent).
    { clear. induction latent as [|g l IH]; [reflexivity|]. cbn [map combine]. now rewrite IH. }
    rewrite E. unfold dict_of. apply In_dget.
    - unfold dkeys. rewrite map_rev. apply NoDup_rev. rewrite map_map. cbn [fst].
      apply FinFun.Injective_map_NoDup; [|exact Hl]. intros a b. apply next_name_inj.
    - rewrite <- in_rev. apply in_map_iff. now exists f.
  Qed.

  Lemma graph_other a : ~ In a all -> (forall f, next_name f <> a) -> dget graph a = None.
  Proof.
    intros Ha Hn. unfold graph, dag_functions.
    rewrite dget_fold_other by (rewrite snd_enumerate; assumption).
    apply dget_None. unfold dkeys, dict_of. rewrite map_rev, <- in_rev. intros H.
    assert (G : In a (map next_name latent)).
    { clear -H. revert H. generalize (map node latent). induction (map next_name latent) as [|n l IH]; intros [|f fs]; cbn; try tauto.
      intros [H|H]; [now left|right; now apply (IH fs)]. }
    apply in_map_iff in G as (g & <- & _). now elim (Hn g).
  Qed.

  Hypotheses (Hp : ~ In "params" all) (Hs : ~ In "states" all).

  Lemma graph_input a : (a = "params" \/ a = "states") -> dget graph a = None.
  Proof. intros [->| ->]; apply graph_other; try assumption; intros f; discriminate. Qed.

  Section Values.
    Variables (params : dict (list R)) (states : list R).
    Hypothesis Hlen : length states = length all.
    Let inputs := [("params", DParams params); ("states", DVec states)].

    Lemma evaluate_input n : evaluate n graph inputs "params" = Ok (DParams params) /\
                             evaluate n graph inputs "states" = Ok (DVec states).
    Proof. destruct n; cbn [evaluate]; rewrite !graph_input by tauto; split; reflexivity. Qed.

    Lemma env_lookup k g : nth_error all k = Some g ->
      exists x, nth_error states k = Some x /\ dget (factor_states all states) g = Some x.
    Proof.
      intros H. assert (Hk : k < length all) by (apply nth_error_Some; congruence).
      destruct (nth_error states k) as [x|] eqn:E; [|apply nth_error_None in E; lia].
      exists x. split; [reflexivity|]. unfold factor_states, dict_of. apply In_dget.
      - unfold dkeys. rewrite map_rev. apply NoDup_rev. rewrite PropsLikelihood.map_fst_combine by congruence. apply Hbase.
      - rewrite <- in_rev. apply (nth_error_In _ k). apply nth_error_combine. now split.
    Qed.

    Lemma evaluate_factor n g : In g all -> exists x,
      dget (factor_states all states) g = Some x /\ evaluate (S n) graph inputs g = Ok (DNum x).
    Proof.
      intros H. apply In_nth_error in H as [k Hk]. destruct (env_lookup k g Hk) as (x & Ex & Eg).
      exists x. split; [exact Eg|]. cbn [evaluate]. rewrite (graph_factor k g Hk). cbn [df_args extract_factor mapM].
      destruct (evaluate_input n) as [_ ->]. cbn [rbind df_body combine]. unfold vec_arg, dget_err. cbn.
      unfold nth_err. now rewrite Ex.
    Qed.

    Definition passed (a : string) : dvalue :=
      if String.eqb a "params" then DParams params
      else if String.eqb a "states" then DVec states
      else match dget (factor_states all states) a with Some x => DNum x | None => DVec [] end.

    Lemma evaluate_argument n a : (a = "params" \/ a = "states" \/ In a all) -> evaluate (S n) graph inputs a = Ok (passed a).
    Proof.
      intros [->|[->|H]]; [apply evaluate_input|apply evaluate_input|].
      unfold passed.
      destruct (String.eqb_spec a "params"); [congruence|]. destruct (String.eqb_spec a "states"); [congruence|].
      destruct (evaluate_factor n a H) as (x & -> & ->). reflexivity.
    Qed.

    Lemma evaluate_arguments n args : (forall a, In a args -> a = "params" \/ a = "states" \/ In a all) ->
      mapM (evaluate (S n) graph inputs) args = Ok (map passed args).
    Proof.
      induction args as [|a args IH]; intros H; [reflexivity|]. cbn [mapM map].
      rewrite evaluate_argument by (apply H; now left). cbn [rbind]. rewrite IH; [reflexivity|].
      intros b Hb. apply H. now right.
    Qed.

    Lemma combine_map_self {B} (h : string -> B) args : combine args (map h args) = map (fun a => (a, h a)) args.
    Proof. induction args as [|a args IH]; [reflexivity|]. cbn. now rewrite IH. Qed.

    Lemma dget_map_args {B} (h : string -> B) args a : In a args -> dget (map (fun a => (a, h a)) args) a = Some (h a).
    Proof.
      induction args as [|b args IH]; intros H; [destruct H|]. cbn [map dget].
      destruct (String.eqb_spec a b) as [->|Hab]; [reflexivity|]. apply IH. destruct H; [congruence|assumption].
    Qed.

    (** Replacing the parameters among the keyword arguments. *)
    Lemma dset_params {B} (h : string -> B) args v : In "params" args ->
      dset (map (fun a => (a, h a)) args) "params" v = map (fun a => (a, if String.eqb a "params" then v else h a)) args.
    Proof.
      intros H. unfold dset.
      assert (E : smem "params" (dkeys (map (fun a => (a, h a)) args)) = true).
      { apply smem_In. unfold dkeys. rewrite map_map. cbn. now rewrite map_id. }
      rewrite E. rewrite map_map. apply map_ext. intros a. cbn [fst snd].
      destruct (String.eqb_spec a "params") as [->|Ha].
      - now rewrite ?String.eqb_refl.
      - rewrite ?(proj2 (String.eqb_neq "params" a)) by congruence. rewrite ?(proj2 (String.eqb_neq a "params")) by congruence. reflexivity.
    Qed.

    Definition as_value (r : result R) : result dvalue := do y <- r; Ok (DNum y).

    Lemma evaluate_S n fs i name : evaluate (S n) fs i name =
      match dget fs name with
      | None => dget_err i name
      | Some f => do values <- mapM (evaluate n fs i) (df_args f); df_body f (combine (df_args f) values)
      end.
    Proof. reflexivity. Qed.

    Lemma evaluate_wrapped n name conv f0 : dget graph name = Some (with_params conv f0) ->
      In "params" (df_args f0) -> (forall a, In a (df_args f0) -> a = "params" \/ a = "states" \/ In a all) ->
      evaluate (S (S n)) graph inputs name =
      do params' <- conv (DParams params);
      df_body f0 (map (fun a => (a, if String.eqb a "params" then params' else passed a)) (df_args f0)).
    Proof.
      intros Hg Hin Hargs. rewrite evaluate_S, Hg. unfold with_params. cbn [df_args df_body].
      rewrite evaluate_arguments by exact Hargs. cbn [rbind]. rewrite combine_map_self.
      unfold dget_err. rewrite dget_map_args by exact Hin. unfold passed at 1. rewrite String.eqb_refl. cbn [rbind].
      destruct (conv (DParams params)) as [v|e]; [|reflexivity]. cbn [rbind]. now rewrite dset_params.
    Qed.

    Lemma evaluate_next n f : In f latent ->
      evaluate (S (S n)) graph inputs (next_name f)
      = as_value (next_state nan neg_inf (call cf) all f (spec f) params states).
    Proof.
      intros Hf. pose proof (graph_next f Hf) as Hg.
      pose proof (Hspec f Hf) as H. destruct Hbase as (_ & Hincl & _).
      unfold node in Hg. unfold next_state. destruct (spec f) as [s|[fn|] [names|]|]; cbn in H; try contradiction.
      - destruct H as [t Et]. rewrite Et in Hg |- *.
        assert (Hfp : f <> "params") by (intros ->; apply Hp, Hincl, Hf).
        assert (Hfs : f <> "states") by (intros ->; apply Hs, Hincl, Hf).
        destruct (evaluate_factor n f (Hincl f Hf)) as (x & Ex & _). unfold dget_err at 1. rewrite Ex. cbn [rbind].
        rewrite (evaluate_wrapped n _ _ _ Hg); [|destruct t; right; now left|].
        2: { intros a Ha. destruct t; cbn in Ha; destruct Ha as [<-|[<-|[]]]; auto. }
        unfold select_key. destruct (dget_err params f) as [c|e]; [|reflexivity]. cbn [rbind].
        destruct t; try reflexivity.
        cbn [builtin rename_argument df_args df_body map String.eqb Ascii.eqb Bool.eqb fst snd eval_tf].
        rewrite String.eqb_refl. unfold dget_err. cbn [dget String.eqb Ascii.eqb Bool.eqb rbind].
        rewrite (proj2 (String.eqb_neq f "params") Hfp). unfold passed.
        rewrite (proj2 (String.eqb_neq f "params") Hfp), (proj2 (String.eqb_neq f "states") Hfs), Ex. reflexivity.
      - destruct H as (Hin & Hnd & Hargs & Hnum).
        rewrite (evaluate_wrapped n _ _ _ Hg Hin Hargs). unfold select_key.
        destruct (dget_err params f) as [c|e]; [|reflexivity]. cbn [rbind with_names]. unfold call, as_value.
        set (k := map _ _). set (k' := map _ _).
        assert (E : k = k').
        { unfold k, k'. apply map_ext. intros a. unfold passed. now destruct (String.eqb a "params"). }
        rewrite <- E. destruct (df_body (cf f) k) as [v|e] eqn:Ev; [|reflexivity].
        destruct (Hnum _ _ Ev) as [y ->]. reflexivity.
    Qed.

    (** The inputs of the functions. *)
    Lemma free_S n fs name : free_arguments (S n) fs name =
      match dget fs name with
      | None => Ok [name]
      | Some f => do ls <- mapM (free_arguments n fs) (df_args f); Ok (concat ls)
      end.
    Proof. reflexivity. Qed.

    Definition needs (a : string) : list string := if String.eqb a "params" then ["params"] else ["states"].

    Lemma free_argument n a : (a = "params" \/ a = "states" \/ In a all) -> free_arguments (S n) graph a = Ok (needs a).
    Proof.
      intros [->|[->|H]].
      - rewrite free_S, graph_input by tauto. reflexivity.
      - rewrite free_S, graph_input by tauto. reflexivity.
      - unfold needs. destruct (String.eqb_spec a "params"); [congruence|].
        apply In_nth_error in H as [k Hk]. rewrite free_S, (graph_factor k a Hk). cbn [df_args extract_factor mapM].
        assert (E : free_arguments n graph "states" = Ok ["states"]).
        { destruct n; cbn [free_arguments]; rewrite graph_input by tauto; reflexivity. }
        rewrite E. reflexivity.
    Qed.

    Definition node_args (f : string) : list string := df_args (node f).

    Lemma node_args_ok f : In f latent ->
      In "params" (node_args f) /\ (forall a, In a (node_args f) -> a = "params" \/ a = "states" \/ In a all) /\
      (depends_on_states cf f (spec f) -> exists a, In a (node_args f) /\ a <> "params").
    Proof.
      intros Hf. pose proof (Hspec f Hf) as H. unfold node_args, node. destruct Hbase as (_ & Hincl & _).
      destruct (spec f) as [s|[fn|] [names|]|]; cbn in H; try contradiction.
      - destruct H as [t ->]. split; [destruct t; right; now left|]. split.
        + intros a Ha. destruct t; cbn in Ha; destruct Ha as [<-|[<-|[]]]; auto.
        + intros _. assert (f <> "params") by (intros ->; apply Hp, Hincl, Hf).
          destruct t; eexists; (split; [left; reflexivity|]); try discriminate. exact H.
      - destruct H as (Hin & _ & Hargs & _). split; [exact Hin|]. split; [exact Hargs|]. intros H. exact H.
    Qed.

    Lemma free_next n f : In f latent -> free_arguments (S (S n)) graph (next_name f) = Ok (flat_map needs (node_args f)).
    Proof.
      intros Hf. rewrite free_S, (graph_next f Hf). fold (node_args f).
      destruct (node_args_ok f Hf) as (_ & Hargs & _).
      assert (E : mapM (free_arguments (S n) graph) (node_args f) = Ok (map needs (node_args f))).
      { induction (node_args f) as [|a l IH]; [reflexivity|]. cbn [mapM map].
        rewrite free_argument by (apply Hargs; now left). cbn [rbind]. rewrite IH; [reflexivity|]. intros b Hb. apply Hargs. now right. }
      rewrite E. cbn [rbind]. now rewrite flat_map_concat_map.
    Qed.

    Lemma free_all n fs : incl fs latent ->
      mapM (free_arguments (S (S n)) graph) (map next_name fs) = Ok (map (fun f => flat_map needs (node_args f)) fs).
    Proof.
      induction fs as [|f fs IH]; intros H; [reflexivity|]. cbn [map mapM].
      rewrite free_next by (apply H; now left). cbn [rbind]. rewrite IH; [reflexivity|]. intros g Hg. apply H. now right.
    Qed.

    Lemma evaluate_all n fs : incl fs latent ->
      (do values <- mapM (evaluate (S (S n)) graph inputs) (map next_name fs); mapM as_num values)
      = mapM (fun f => next_state nan neg_inf (call cf) all f (spec f) params states) fs.
    Proof.
      induction fs as [|f fs IH]; intros H; [reflexivity|]. cbn [map mapM].
      rewrite evaluate_next by (apply H; now left).
      rewrite <- IH by (intros g Hg; apply H; now right).
      destruct (next_state nan neg_inf (call cf) all f (spec f) params states) as [y|e]; [|reflexivity].
      cbn [as_value rbind]. destruct (mapM (evaluate (S (S n)) graph inputs) (map next_name fs)); reflexivity.
    Qed.

    Lemma graph_nonempty f : In f latent -> exists n, length graph = S n.
    Proof.
      intros Hf. pose proof (graph_next f Hf) as H. destruct graph as [|kv d]; [discriminate|]. now exists (length d).
    Qed.

    Lemma concatenated fs : fs <> [] -> incl fs latent -> (exists f, In f fs /\ depends_on_states cf f (spec f)) ->
      (do func <- concatenate_functions graph (map next_name fs);
       do values <- func (DParams params) (DVec states); mapM as_num values)
      = mapM (fun f => next_state nan neg_inf (call cf) all f (spec f) params states) fs.
    Proof.
      intros Hne Hincl (f & Hf & Hdep). unfold concatenate_functions.
      assert (E : forallb (fun t => smem t (dkeys graph)) (map next_name fs) = true).
      { apply forallb_forall. intros t Ht. apply in_map_iff in Ht as (g & <- & Hg). apply smem_In.
        pose proof (graph_next g (Hincl g Hg)) as G. apply dget_In in G. unfold dkeys. apply in_map_iff. now exists (next_name g, node g). }
      rewrite E. destruct (graph_nonempty f (Hincl f Hf)) as [n ->]. rewrite free_all by exact Hincl. cbn [rbind].
      rewrite bind_two; [cbn [rbind]; apply evaluate_all; exact Hincl|].
      intros x. rewrite in_concat. split.
      - intros (l & Hl & Hx). apply in_map_iff in Hl as (g & <- & Hg). apply in_flat_map in Hx as (a & _ & Ha).
        unfold needs in Ha. destruct (String.eqb a "params"); destruct Ha as [<-|[]]; auto.
      - intros H. exists (flat_map needs (node_args f)). split; [apply in_map_iff; now exists f|].
        destruct (node_args_ok f (Hincl f Hf)) as (Hpar & _ & Hd). apply in_flat_map. destruct H as [->| ->].
        + exists "params". split; [exact Hpar|]. now left.
        + destruct (Hd Hdep) as (a & Ha & Hap). exists a. split; [exact Ha|]. unfold needs.
          rewrite (proj2 (String.eqb_neq a "params") Hap). now left.
    Qed.
  End Values.
End Facts.
