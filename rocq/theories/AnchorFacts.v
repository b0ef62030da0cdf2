(** Lemmas about the rows of the anchoring equations and the parsed scaling
    factors and constants. *)
Require Import String Ascii Arith ZArith Bool List Lia.
From Verif Require Import PyBase ListFacts StringFacts ModelSpec ProcessModel CheckModel SpecModel
  ProcessModelFacts AcceptFacts ParamsIndex SpecIndex IndexFacts SpecFacts ParseParams SpecParse
  ParseFacts.
Import ListNotations.
Open Scope string_scope.
Open Scope list_scope.
Open Scope nat_scope.

Lemma filter_unique {A} (b : A -> bool) l x :
  NoDup l -> In x l -> (forall y, In y l -> b y = true <-> y = x) -> filter b l = [x].
Proof.
  induction l as [|y l IH]; intros Hnd Hx H; [destruct Hx|].
  inversion_clear Hnd as [|? ? Hni Hnd']. simpl. destruct Hx as [->|Hx].
  - rewrite (proj2 (H x (or_introl eq_refl)) eq_refl). f_equal. apply filter_none.
    intros z Hz. destruct (b z) eqn:E; [|reflexivity].
    apply H in E; [|now right]. subst. contradiction.
  - destruct (b y) eqn:E.
    + apply H in E; [|now left]. subst. contradiction.
    + apply IH; auto. intros z Hz. apply H. now right.
Qed.

Lemma map_filter_comm {A B} (g : A -> B) (P : A -> bool) (Q : B -> bool) l :
  (forall x, In x l -> P x = Q (g x)) -> map g (filter P l) = filter Q (map g l).
Proof.
  induction l as [|x l IH]; intros H; simpl; [reflexivity|].
  rewrite <- (H x) by now left. rewrite <- IH by (intros; apply H; now right).
  now destruct (P x).
Qed.

Lemma filter_filter_comm {A} (P Q : A -> bool) l :
  filter P (filter Q l) = filter Q (filter P l).
Proof.
  induction l as [|x l IH]; simpl; [reflexivity|].
  destruct (P x) eqn:EP, (Q x) eqn:EQ; simpl; rewrite ?EP, ?EQ; now rewrite IH.
Qed.

Lemma first_appearances_filter {A} (dec : forall x y : A, {x = y} + {x <> y}) (P : A -> bool) l :
  filter P (first_appearances dec l) = first_appearances dec (filter P l).
Proof.
  induction l as [|x l IH]; simpl; [reflexivity|].
  rewrite filter_filter_comm, IH. destruct (P x) eqn:E; simpl; [reflexivity|].
  apply filter_all. intros y Hy. apply In_first_appearances, filter_In in Hy.
  destruct (dec x y) as [<-|]; [|reflexivity]. destruct Hy as [_ Hy]. congruence.
Qed.

Lemma first_appearances_NoDup {A} (dec : forall x y : A, {x = y} + {x <> y}) l :
  NoDup l -> first_appearances dec l = l.
Proof.
  induction 1 as [|x l Hni Hnd IH]; simpl; [reflexivity|]. f_equal. rewrite IH.
  apply filter_all. intros y Hy. destruct (dec x y) as [->|]; [contradiction|reflexivity].
Qed.

Lemma filter_flat_map {A B} (P : B -> bool) (g : A -> list B) l :
  filter P (flat_map g l) = flat_map (fun x => filter P (g x)) l.
Proof. induction l as [|x l IH]; simpl; [reflexivity|]. now rewrite filter_app, IH. Qed.

Definition fo_name (fo : string * string) : string := (snd fo ++ "_" ++ fst fo)%string.

Section Anchoring.
  Variables (md : model_dict) (p : processed).
  Hypothesis Hwf : wf_dicts md.
  Hypothesis Hp : process_model md = Ok p.
  Hypothesis Hclean : clean_anchoring md.
  Let n := n_periods (p_dims p).
  Let outs := outcomes_of md.

  Definition is_name (v : string) : bool := existsb (String.eqb v) (map fo_name (outcomes_of md)).

  Lemma is_name_spec v : is_name v = true <-> exists f o, In (f, o) outs /\ v = fo_name (f, o).
  Proof.
    unfold is_name. rewrite existsb_exists. split.
    - intros [x [Hx E]]. apply String.eqb_eq in E. subst. apply in_map_iff in Hx.
      destruct Hx as [[f o] [<- Hin]]. eauto.
    - intros [f [o [Hin ->]]]. exists (fo_name (f, o)). split; [now apply in_map|].
      apply String.eqb_refl.
  Qed.

  Lemma Hnper : has_n_periods md n.
  Proof. apply (p_dims_eq md p Hp). Qed.

  Lemma row_period r : In r (p_update p) -> u_period r < n.
  Proof.
    intros Hr. assert (In (u_key r) (map u_key (p_update p))) as H by now apply in_map.
    unfold u_key in H. apply (In_p_update_keys md p Hwf Hp) in H. destruct H as [f [H|H]].
    - destruct H as [fs [ms [Hin [Hms _]]]]. pose proof Hnper as [_ Hle].
      specialize (Hle _ _ Hin). assert (u_period r < length (fs_measurements fs)); [|lia].
      apply nth_error_Some. congruence.
    - destruct H as [[m [Hm Hlt]] _]. rewrite (has_n_periods_fun md n m Hnper Hm). exact Hlt.
  Qed.

  Lemma anchoring_row r : In r (p_update p) -> is_anchoring r = is_name (u_var r).
  Proof.
    intros Hr. pose proof (p_update_purpose md p r Hwf Hp Hr) as Hpu. unfold is_anchoring.
    destruct (is_name (u_var r)) eqn:E.
    - apply is_name_spec in E. destruct E as [f [o [Hin Hv]]].
      rewrite (proj2 (proj1 Hpu)); [reflexivity|]. exists f. split.
      + exists n. split; [exact Hnper|]. now apply row_period.
      + exists o. split; [now apply anchored_outcomes|exact Hv].
    - rewrite (proj2 (proj2 Hpu)); [reflexivity|]. intros [f [_ [o [Ho Hv]]]].
      assert (is_name (u_var r) = true); [|congruence].
      apply is_name_spec. apply anchored_outcomes in Ho. eauto.
  Qed.

  Lemma anchoring_keys :
    map u_key (filter is_anchoring (p_update p))
    = flat_map (fun t => map (fun fo => (t, fo_name fo)) outs) (seq 0 n).
  Proof.
    rewrite (map_filter_comm u_key _ (fun k => is_name (snd k))).
    2:{ intros r Hr. now apply anchoring_row. }
    destruct (process_update_table md p Hwf Hp) as [-> _].
    rewrite table_keys, events_keys, first_appearances_filter.
    unfold written_equations. rewrite filter_flat_map.
    rewrite (flat_map_ext_in _ (fun t => map (fun fo => (t, fo_name fo)) outs)).
    - apply first_appearances_NoDup. apply NoDup_flat_map.
      + apply seq_NoDup.
      + intros t _. destruct Hclean as [_ [Hnd _]].
        apply (NoDup_map_inv snd). rewrite map_map. exact Hnd.
      + intros a b x _ _ Ha Hb. apply in_map_iff in Ha, Hb.
        destruct Ha as [? [<- _]], Hb as [? [[= -> _] _]]. reflexivity.
    - intros t Ht. rewrite map_app, filter_app.
      rewrite (filter_none _ (map _ (flat_map _ _))).
      2:{ intros k Hk. apply in_map_iff in Hk. destruct Hk as [v [<- Hv]]. simpl.
          destruct (is_name v) eqn:E; [|reflexivity]. exfalso.
          apply is_name_spec in E. destruct E as [f [o [Hin ->]]].
          apply in_flat_map in Hv. destruct Hv as [[g fs] [Hg Hv]]. simpl in Hv.
          destruct Hclean as [_ [_ Hm]]. apply (Hm t f o g Hin).
          destruct (nth_error (fs_measurements fs) t) as [ms|] eqn:E.
          - exists fs, ms. split; [exact Hg|]. split; [exact E|].
            now rewrite (nth_error_nth _ _ [] E) in Hv.
          - apply nth_error_None in E. rewrite nth_overflow in Hv by exact E. destruct Hv. }
      simpl. rewrite filter_all.
      2:{ intros k Hk. apply in_map_iff in Hk. destruct Hk as [v [<- Hv]]. simpl.
          unfold is_name. apply existsb_exists. exists v. split; [|apply String.eqb_refl].
          unfold outcomes_of. destruct (md_anchoring md) as [a|]; [|destruct Hv].
          destruct (as_outcomes a); [|destruct Hv]. exact Hv. }
      unfold outs, outcomes_of. destruct (md_anchoring md) as [a|]; [|reflexivity].
      destruct (as_outcomes a); [|reflexivity]. now rewrite map_map.
  Qed.

  (** The flags of an anchoring equation. *)
  Definition flag_of (v f : string) : bool :=
    existsb (fun fo => String.eqb (fo_name fo) v && String.eqb (fst fo) f) (outcomes_of md).

  Lemma anchoring_flag r f :
    In r (p_update p) -> is_anchoring r = true -> u_flag r f = flag_of (u_var r) f.
  Proof.
    intros Hr Ha. rewrite (anchoring_row r Hr) in Ha. apply is_name_spec in Ha.
    destruct Ha as [g [o [Hg Hv]]].
    pose proof (p_update_flag md p r f Hwf Hp Hr) as Hf.
    destruct (flag_of (u_var r) f) eqn:E.
    - apply Hf. right. unfold flag_of in E. apply existsb_exists in E.
      destruct E as [[f' o'] [Hin E]]. apply andb_true_iff in E. destruct E as [E1 E2].
      apply String.eqb_eq in E1, E2. simpl in E2. subst f'. split.
      + exists n. split; [exact Hnper|]. now apply row_period.
      + exists o'. split; [now apply anchored_outcomes|]. now symmetry.
    - destruct (u_flag r f) eqn:Eu; [|reflexivity]. exfalso.
      destruct (proj1 Hf eq_refl) as [Hm|[_ [o' [Ho' Hv']]]].
      + destruct Hclean as [_ [_ Hcl]]. rewrite Hv in Hm. exact (Hcl _ _ _ _ Hg Hm).
      + apply anchored_outcomes in Ho'. assert (flag_of (u_var r) f = true); [|congruence].
        unfold flag_of. apply existsb_exists. exists (f, o'). split; [exact Ho'|].
        rewrite Hv'. unfold fo_name. simpl. now rewrite !String.eqb_refl.
  Qed.

  Lemma latent_NoDup : NoDup (latent_of md).
  Proof. exact (proj1 Hwf). Qed.

  Lemma flag_filter fo : In fo outs -> filter (flag_of (fo_name fo)) (latent_of md) = [fst fo].
  Proof.
    intros Hin. destruct Hclean as [Hl [Hnd _]]. apply filter_unique.
    - exact latent_NoDup.
    - destruct fo as [f o]. now apply (Hl f o).
    - intros y _. unfold flag_of. rewrite existsb_exists. split.
      + intros [fo' [Hin' E]]. apply andb_true_iff in E. destruct E as [E1 E2].
        apply String.eqb_eq in E1, E2. subst y.
        assert (fo' = fo) as ->; [|reflexivity].
        clear -Hnd Hin Hin' E1. unfold outs in *. fold fo_name in Hnd.
        induction (outcomes_of md) as [|x l IH]; [destruct Hin|]. simpl in Hnd.
        inversion_clear Hnd as [|? ? Hni Hnd'].
        destruct Hin as [->|Hin], Hin' as [->|Hin']; [reflexivity| | |auto].
        * exfalso. apply Hni. rewrite <- E1. now apply in_map.
        * exfalso. apply Hni. rewrite E1. now apply in_map.
      + intros ->. exists fo. split; [exact Hin|]. now rewrite !String.eqb_refl.
  Qed.

  Lemma flat_map_anchoring {B} (h : urow -> list B) (H : nat * string -> list B) :
    (forall r, In r (p_update p) -> is_anchoring r = true -> h r = H (u_key r)) ->
    flat_map h (filter is_anchoring (p_update p))
    = flat_map (fun t => flat_map (fun fo => H (t, fo_name fo)) outs) (seq 0 n).
  Proof.
    intros E. rewrite (flat_map_ext_in h (fun r => H (u_key r))).
    2:{ intros r Hr. apply filter_In in Hr. now apply E. }
    rewrite <- (flat_map_map H u_key), anchoring_keys.
    generalize (seq 0 n) as ts. induction ts as [|t ts IH]; simpl; [reflexivity|].
    rewrite flat_map_app, IH. f_equal. apply flat_map_map.
  Qed.

  Definition is_anchored (f : string) : bool := existsb (String.eqb f) (map fst (outcomes_of md)).

  Lemma is_anchored_spec f : is_anchored f = true <-> In f (map fst outs).
  Proof.
    unfold is_anchored. rewrite existsb_exists. split.
    - intros [x [Hx E]]. apply String.eqb_eq in E. now subst.
    - intros H. exists f. split; [exact H|]. apply String.eqb_refl.
  Qed.

  Lemma n_pos : 1 <= n.
  Proof. apply (p_dims_eq md p Hp). Qed.

  Lemma anchored_factor_mask :
    map (fun f => existsb (fun r => is_anchoring r && u_flag r f) (p_update p)) (latent_of md)
    = map is_anchored (latent_of md).
  Proof.
    apply map_ext. intros f. apply eq_iff_eq_true. rewrite existsb_exists, is_anchored_spec. split.
    - intros [r [Hr E]]. apply andb_true_iff in E. destruct E as [Ea Ef].
      rewrite (anchoring_flag r f Hr Ea) in Ef. unfold flag_of in Ef.
      apply existsb_exists in Ef. destruct Ef as [fo [Hin E]].
      apply andb_true_iff in E. destruct E as [_ E]. apply String.eqb_eq in E. subst f.
      now apply in_map.
    - intros Hf. apply in_map_iff in Hf. destruct Hf as [fo [<- Hin]].
      assert (In (0, fo_name fo) (map u_key (filter is_anchoring (p_update p)))) as Hk.
      { rewrite anchoring_keys. apply in_flat_map. exists 0. split.
        - apply in_seq. pose proof n_pos. lia.
        - apply in_map_iff. eauto. }
      apply in_map_iff in Hk. destruct Hk as [r [Er Hr]]. apply filter_In in Hr.
      destruct Hr as [Hr Ha]. exists r. split; [exact Hr|]. rewrite Ha. simpl.
      rewrite (anchoring_flag r _ Hr Ha). unfold u_key in Er. injection Er as _ ->.
      unfold flag_of. apply existsb_exists. exists fo. split; [exact Hin|].
      now rewrite !String.eqb_refl.
  Qed.

  Lemma outs_keys_NoDup : NoDup (map fst outs).
  Proof.
    unfold outs, outcomes_of. destruct Hwf as [_ H].
    destruct (md_anchoring md) as [a|]; [|constructor].
    destruct (as_outcomes a) as [o|] eqn:E; [|constructor]. now apply (H a).
  Qed.

  Lemma n_anchored : length (filter is_anchored (latent_of md)) = length outs.
  Proof.
    rewrite <- (map_length fst outs). apply Nat.le_antisymm; apply NoDup_incl_length.
    - apply NoDup_filter. exact latent_NoDup.
    - intros f Hf. apply filter_In in Hf. now apply is_anchored_spec.
    - exact outs_keys_NoDup.
    - intros f Hf. apply filter_In. split; [|now apply is_anchored_spec].
      apply in_map_iff in Hf. destruct Hf as [[g o] [<- Hin]]. destruct Hclean as [Hl _].
      simpl. now apply (Hl g o).
  Qed.

  Section Values.
    Variable A : Type.
    Variables (zero one : A).
    Variable val : label -> A.
    Let info := create_parsing_info (params_index_of p) (p_update p) (p_labels p) (p_anch p).
    Let loadings :=
      map (fun r => map (fun f => if u_flag r f
                                  then val (CLoadings, u_period r, u_var r, f) else zero)
                        (latent_of md)) (p_update p).
    Let controls :=
      map (fun r => map (fun c => val (CControls, u_period r, u_var r, c))
                        ("constant" :: controls_of md)) (p_update p).

    Lemma flat_map_if {X Y} (P : X -> bool) (h : X -> list Y) l :
      flat_map (fun x => if P x then h x else []) l = flat_map h (filter P l).
    Proof. induction l as [|x l IH]; simpl; [reflexivity|]. destruct (P x); simpl; now rewrite IH. Qed.

    Lemma selected_loadings :
      mask_select (concat (pi_is_anchoring_loading info)) (concat loadings)
      = flat_map (fun t => map (fun fo => val (CLoadings, t, fo_name fo, fst fo)) outs) (seq 0 n).
    Proof.
      unfold info. simpl pi_is_anchoring_loading. destruct (p_labels_eq md p Hp) as [-> _].
      unfold loadings. rewrite <- !flat_map_concat_map.
      set (pairs := flat_map (fun r => map (fun f => (r, f)) (latent_of md)) (p_update p)).
      assert (flat_map (fun r => map (fun f => u_flag r f && is_anchoring r) (latent_of md))
                (p_update p)
              = map (fun rf => u_flag (fst rf) (snd rf) && is_anchoring (fst rf)) pairs) as ->.
      { unfold pairs. rewrite map_flat_map. apply flat_map_ext_in. intros. now rewrite map_map. }
      assert (flat_map (fun r => map (fun f => if u_flag r f
                  then val (CLoadings, u_period r, u_var r, f) else zero) (latent_of md)) (p_update p)
              = map (fun rf => if u_flag (fst rf) (snd rf)
                  then val (CLoadings, u_period (fst rf), u_var (fst rf), snd rf) else zero) pairs)
        as ->.
      { unfold pairs. rewrite map_flat_map. apply flat_map_ext_in. intros. now rewrite map_map. }
      rewrite mask_select_map. unfold pairs. rewrite filter_flat_map, map_flat_map.
      set (H := fun k : nat * string =>
        map (fun f => val (CLoadings, fst k, snd k, f)) (filter (flag_of (snd k)) (latent_of md))).
      rewrite (flat_map_ext_in _ (fun r => if is_anchoring r then H (u_key r) else [])).
      2:{ intros r Hr. destruct (is_anchoring r) eqn:Ea.
          - unfold H. simpl.
            assert (forall l, map (fun rf => if u_flag (fst rf) (snd rf)
                  then val (CLoadings, u_period (fst rf), u_var (fst rf), snd rf) else zero)
               (filter (fun rf => u_flag (fst rf) (snd rf) && is_anchoring (fst rf))
                  (map (fun f => (r, f)) l))
               = map (fun f => val (CLoadings, u_period r, u_var r, f))
                   (filter (flag_of (u_var r)) l)) as Hl; [|apply Hl].
            induction l as [|f l IH]; simpl; [reflexivity|].
            rewrite <- (anchoring_flag r f Hr Ea), Ea, andb_true_r.
            destruct (u_flag r f) eqn:Ef; simpl; [rewrite Ef|]; now rewrite IH.
          - assert (forall l, filter (fun rf => u_flag (fst rf) (snd rf) && is_anchoring (fst rf))
                  (map (fun f => (r, f)) l) = []) as ->; [|reflexivity].
            induction l as [|f l IH]; simpl; [reflexivity|]. now rewrite Ea, andb_false_r. }
      rewrite flat_map_if, (flat_map_anchoring _ H) by reflexivity.
      apply flat_map_ext_in. intros t _. unfold H. simpl.
      assert (forall l, incl l outs ->
        flat_map (fun fo => map (fun f => val (CLoadings, t, fo_name fo, f))
                              (filter (flag_of (fo_name fo)) (latent_of md))) l
        = map (fun fo => val (CLoadings, t, fo_name fo, fst fo)) l) as Hl; [|now apply Hl].
      induction l as [|fo l IH]; intros Hi; simpl; [reflexivity|].
      rewrite flag_filter by (apply Hi; now left). simpl. f_equal. apply IH.
      intros x Hx. apply Hi. now right.
    Qed.

    Lemma selected_constants :
      mask_select (pi_is_anchoring_update info) (map (fun row => nth 0 row zero) controls)
      = flat_map (fun t => map (fun fo => val (CControls, t, fo_name fo, "constant")) outs) (seq 0 n).
    Proof.
      unfold info. simpl pi_is_anchoring_update. unfold controls. rewrite map_map. simpl.
      rewrite mask_select_map.
      set (H := fun k : nat * string => [val (CControls, fst k, snd k, "constant")]).
      assert (forall l, map (fun r => val (CControls, u_period r, u_var r, "constant")) l
                        = flat_map (fun r => H (u_key r)) l) as ->.
      { induction l as [|r l IH]; simpl; [reflexivity|]. now rewrite IH. }
      rewrite (flat_map_anchoring _ H) by reflexivity. apply flat_map_ext_in. intros t _.
      unfold H. simpl. induction outs as [|fo l IH]; simpl; [reflexivity|]. now rewrite IH.
    Qed.

    Lemma combine_repeat_map {X Y Z} (g : X -> Y) (z : Z) l :
      combine (repeat z (length l)) (map g l) = map (fun x => (z, g x)) l.
    Proof. induction l as [|x l IH]; simpl; [reflexivity|]. now rewrite IH. Qed.

    (** Setting the columns of the anchored factors. *)
    Lemma set_columns_ok (g : nat -> string * string -> A) dflt :
      set_columns (pi_is_anchored_factor info) (map (fun t => map (g t) outs) (seq 0 n))
        (repeat (repeat dflt (n_latent (p_dims p))) (n_periods (p_dims p)))
      = Ok (map (fun t => mask_set (map is_anchored (latent_of md)) (map (g t) outs)
                            (map (fun _ => dflt) (latent_of md))) (seq 0 n)).
    Proof.
      unfold info. simpl pi_is_anchored_factor.
      destruct (p_labels_eq md p Hp) as [-> _]. destruct (p_dims_eq md p Hp) as [-> _].
      rewrite anchored_factor_mask, repeat_map. unfold set_columns. fold n.
      rewrite <- (seq_length n 0) at 1. rewrite combine_repeat_map, mapM_map.
      apply mapM_all_ok. intros t _. simpl.
      now rewrite map_length, count_true_map, n_anchored, Nat.eqb_refl.
    Qed.

    Lemma reshape_outs (g : nat -> string * string -> A) :
      reshape_rows (n_periods (p_dims p)) (flat_map (fun t => map (g t) outs) (seq 0 n))
      = Ok (map (fun t => map (g t) outs) (seq 0 n)).
    Proof.
      apply (reshape_rows_flat_map _ (length outs)).
      - now rewrite seq_length.
      - pose proof n_pos. unfold n in *. lia.
      - intros; apply map_length.
    Qed.

    Lemma parsed_scaling :
      get_anchoring_scaling_factors one loadings info (p_dims p)
      = Ok (map (fun t =>
          mask_set (map is_anchored (latent_of md))
            (map (fun fo => val (CLoadings, t, fo_name fo, fst fo)) outs)
            (map (fun _ => one) (latent_of md)) ++ repeat one (length (observed_of md))) (seq 0 n)).
    Proof.
      unfold get_anchoring_scaling_factors. rewrite selected_loadings.
      rewrite (reshape_outs (fun t fo => val (CLoadings, t, fo_name fo, fst fo))). simpl.
      rewrite (set_columns_ok (fun t fo => val (CLoadings, t, fo_name fo, fst fo))). simpl.
      destruct (p_dims_eq md p Hp) as [_ [-> _]]. now rewrite map_map.
    Qed.

    Lemma a_ignore_eq : a_ignore_constant (p_anch p) = ignores_constant md.
    Proof.
      destruct (process_model_inv md p Hp) as [_ [_ [-> _]]].
      unfold process_anchoring, ignores_constant.
      destruct (md_anchoring md) as [a|]; [|reflexivity].
      simpl. now destruct (as_ignore_constant a).
    Qed.

    Lemma parsed_constants :
      get_anchoring_constants zero controls info (p_dims p)
      = Ok (map (fun t =>
          (if ignores_constant md then map (fun _ => zero) (latent_of md)
           else mask_set (map is_anchored (latent_of md))
            (map (fun fo => val (CControls, t, fo_name fo, "constant")) outs)
            (map (fun _ => zero) (latent_of md)))
          ++ repeat zero (length (observed_of md))) (seq 0 n)).
    Proof.
      unfold get_anchoring_constants.
      replace (pi_ignore_constant info) with (ignores_constant md) by (symmetry; apply a_ignore_eq).
      destruct (ignores_constant md); cbn [negb rbind].
      - destruct (p_dims_eq md p Hp) as [-> [-> _]]. rewrite (repeat_map zero (latent_of md)). fold n.
        rewrite <- (seq_length n 0) at 1. rewrite (repeat_map _ (seq 0 n)), map_map. reflexivity.
      - rewrite selected_constants.
        rewrite (reshape_outs (fun t fo => val (CControls, t, fo_name fo, "constant"))). simpl.
        rewrite (set_columns_ok (fun t fo => val (CControls, t, fo_name fo, "constant"))). simpl.
        destruct (p_dims_eq md p Hp) as [_ [-> _]]. now rewrite map_map.
    Qed.

    (** With the anchored factors in the order of the latent factors, the values
        end up in the right columns. *)
    Definition outcome_name (f : string) : string :=
      match dget (outcomes_of md) f with Some o => fo_name (f, o) | None => "" end.

    Lemma mask_set_in_order (g : string -> string -> A) dflt :
      anchored_in_order md ->
      mask_set (map is_anchored (latent_of md)) (map (fun fo => g (fo_name fo) (fst fo)) outs)
        (map (fun _ => dflt) (latent_of md))
      = map (fun f => if is_anchored f then g (outcome_name f) f else dflt) (latent_of md).
    Proof.
      intros Ho. unfold anchored_in_order in Ho.
      rewrite (map_ext_in _ (fun fo => g (outcome_name (fst fo)) (fst fo))).
      2:{ intros [f o] Hin. simpl. unfold outcome_name.
          fold outs. rewrite (In_dget _ _ _ outs_keys_NoDup Hin). reflexivity. }
      rewrite <- (map_map fst (fun f => g (outcome_name f) f)). unfold outs at 1. rewrite Ho.
      apply mask_set_map.
    Qed.
  End Values.
End Anchoring.
