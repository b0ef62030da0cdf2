(** Properties of constraints and bounds (C14 - C21). *)
Require Import String Ascii Arith ZArith QArith Bool Lia List.
From Verif Require Import PyBase ListFacts StringFacts ModelSpec ProcessModel CheckModel SpecModel
  ProcessModelFacts AcceptFacts ParamsIndex SpecIndex IndexFacts SpecFacts ParseParams SpecParse
  ParseFacts AnchorFacts Constraints SpecConstraints ConstraintFacts ExampleModels PropsSpec PropsParse.
Import ListNotations.
Open Scope string_scope.
Open Scope list_scope.
Open Scope nat_scope.

Lemma c_bodies p : map c_body (get_constraints p) = constraint_bodies p.
Proof. unfold get_constraints. rewrite map_map. simpl. apply map_snd_enumerate. Qed.

Lemma forall_constraints p (P : constr_body -> Prop) :
  (forall c, In c (get_constraints p) -> P (c_body c)) <->
  (forall c, In c (constraint_bodies p) -> P c).
Proof.
  rewrite <- c_bodies. split.
  - intros H c Hc. apply in_map_iff in Hc. destruct Hc as [x [<- Hx]]. auto.
  - intros H c Hc. apply H. now apply in_map.
Qed.

(** ** The constraints as a whole: a parameter vector satisfies all generated
    constraints iff the documented restrictions hold; nothing else is
    restricted. *)
Theorem C65_constraints_are_the_documented_restrictions md p n v :
  wf_dicts md -> process_model md = Ok p -> has_n_periods md n ->
  (forall c, In c (get_constraints p) -> satisfies (params_index_of p) v (c_body c)) <->
  normalizations_hold md v /\ mixture_weights_hold md v /\ stages_hold md n v /\
  constant_factors_hold md n v /\ mixtures_ordered md v /\ log_ces_holds md n v /\
  anchoring_holds md v.
Proof.
  intros Hwf Hp Hn.
  assert (n = n_periods (p_dims p)) as ->.
  { eapply has_n_periods_fun; [exact Hn|]. now apply (n_is_n_periods md p Hp). }
  rewrite forall_constraints, <- Forall_forall. now apply sat_all.
Qed.
Print Assumptions C65_constraints_are_the_documented_restrictions.

Definition stage_p : processed := get_ok (process_model stage_model) small_p.

Lemma stage_model_wf : wf_dicts stage_model.
Proof.
  split.
  - simpl. repeat constructor; simpl; intuition discriminate.
  - intros a o [= <-] [= <-]. simpl. repeat constructor; simpl; intuition discriminate.
Qed.

Lemma stage_model_accepted : process_model stage_model = Ok stage_p.
Proof. vm_compute. reflexivity. Qed.

Lemma stage_model_periods : has_n_periods stage_model 4.
Proof.
  split.
  - exists "cog". eexists. split; [left; reflexivity|reflexivity].
  - intros f fs [[= <- <-]|[[= <- <-]|[]]]; simpl; lia.
Qed.

Lemma stage_model_clean : clean_anchoring stage_model.
Proof.
  split; [|split].
  - intros f o [[= <- <-]|[[= <- <-]|[]]]; simpl; auto.
  - simpl. repeat constructor; simpl; intuition discriminate.
  - intros k f o g Ho [fs [ms [Hin [Hn Hm]]]].
    destruct Ho as [[= <- <-]|[[= <- <-]|[]]];
    (destruct Hin as [[= <- <-]|[[= <- <-]|[]]];
     (destruct k as [|[|[|[|k]]]]; simpl in Hn; try (destruct k; discriminate);
      injection Hn as <-; simpl in Hm; intuition discriminate)).
Qed.

Lemma stage_model_consistent : consistent_normalizations stage_model.
Proof.
  assert (forall t f m q, normalized_loading stage_model t f m q ->
    (t, f, m, q) = (0, "cog", "a", 1%Q) \/ (t, f, m, q) = (1, "cog", "a", 1%Q) \/
    (t, f, m, q) = (0, "soc", "c", 1%Q) \/ (t, f, m, q) = (1, "soc", "c", 3%Q)) as HL.
  { intros t f m q [fs [nm [l [d [H1 [H2 [H3 [H4 H5]]]]]]]].
    destruct H1 as [[= <- <-]|[[= <- <-]|[]]]; injection H2 as <-; injection H3 as <-;
      destruct t as [|[|[|t]]]; simpl in H4; try discriminate; injection H4 as <-;
      destruct H5 as [[= <- <-]|[]]; auto. }
  assert (forall t f m q, normalized_intercept stage_model t f m q -> q = 2%Q) as HI.
  { intros t f m q [fs [nm [l [d [H1 [H2 [H3 [H4 H5]]]]]]]].
    destruct H1 as [[= <- <-]|[[= <- <-]|[]]]; injection H2 as <-; injection H3 as <-;
      destruct t as [|[|t]]; simpl in H4; try discriminate; injection H4 as <-;
      destruct H5 as [[= <- <-]|[]]; auto. }
  split.
  - intros t f m q q' H H'. apply HL in H, H'.
    destruct H as [H|[H|[H|H]]], H' as [H'|[H'|[H'|H']]]; inversion H; inversion H'; subst;
      try discriminate; reflexivity.
  - intros t f f' m q q' H H'. apply HI in H, H'. subst. reflexivity.
Qed.

Definition stage_v : label -> Q := witness stage_model stage_p (1 # 1000).

Lemma stage_not_constant f : ~ transition_called stage_model f "constant".
Proof.
  intros [fs [[[= <- <-]|[[= <- <-]|[]]] [E|[ps E]]]]; discriminate E.
Qed.

Lemma stage_v_satisfies :
  forall c, In c (get_constraints stage_p) ->
  satisfies (params_index_of stage_p) stage_v (c_body c).
Proof.
  rewrite forall_constraints, <- Forall_forall.
  apply witness_satisfies;
    [exact stage_model_wf|exact stage_model_accepted|exact stage_model_consistent
    |exact stage_model_clean|idtac|]; [cbv; auto|].
  intros f H. now apply stage_not_constant in H.
Qed.

Example C65_nonvacuous :
  wf_dicts stage_model /\ process_model stage_model = Ok stage_p /\ has_n_periods stage_model 4 /\
  (forall c, In c (get_constraints stage_p) ->
     satisfies (params_index_of stage_p) stage_v (c_body c)) /\
  length (get_constraints stage_p) = 11 /\
  ~ (forall c, In c (get_constraints stage_p) ->
     satisfies (params_index_of stage_p) (fun _ => 0%Q) (c_body c)).
Proof.
  split; [exact stage_model_wf|]. split; [exact stage_model_accepted|].
  split; [exact stage_model_periods|]. split; [exact stage_v_satisfies|].
  split; [vm_compute; reflexivity|]. intros H.
  apply (C65_constraints_are_the_documented_restrictions stage_model stage_p 4) in H;
    [|exact stage_model_wf|exact stage_model_accepted|exact stage_model_periods].
  destruct H as [[H _] _]. specialize (H 0 "cog" "a" 1%Q). vm_compute in H.
  discriminate H. eexists _, _, _, _. split; [left; reflexivity|].
  split; [reflexivity|]. split; [reflexivity|]. split; [reflexivity|]. simpl. auto.
Qed.

(** ** C14: constraints refer to existing parameters *)

Theorem C14_constraints_select_parameters_partial md p n :
  wf_dicts md -> process_model md = Ok p -> has_n_periods md n ->
  anchored_latent md -> 1 <= n_mixtures_of md -> no_custom_log_ces md ->
  equalizes_something md n ->
  forall c, In c (get_constraints p) -> selects_existing (params_index_of p) (c_body c).
Proof.
  intros Hwf Hp Hn Hlat Hm Hces Heq.
  assert (n = n_periods (p_dims p)) as ->.
  { eapply has_n_periods_fun; [exact Hn|]. now apply (n_is_n_periods md p Hp). }
  pose proof (In_params_index md p) as Hidx.
  assert (forall lb, is_param md lb -> In lb (params_index_of p)) as Hpar.
  { intros lb H. now apply Hidx. }
  assert (forall lbs, lbs <> [] -> (forall lb, In lb lbs -> is_param md lb) ->
    forall s, In s [SLabels lbs] ->
      selected (params_index_of p) s <> [] /\ incl (selected (params_index_of p) s) (params_index_of p)) as HS.
  { intros lbs Hne H s [<-|[]]. simpl. split; [exact Hne|]. intros lb Hlb. apply Hpar. auto. }
  assert (forall s, (exists c, s = SCat c) \/ (exists c t, s = SCatPeriod c t) ->
     incl (selected (params_index_of p) s) (params_index_of p)) as HF.
  { intros s [[c ->]|[c [t ->]]] lb Hlb; simpl in Hlb; apply filter_In in Hlb; tauto. }
  rewrite (forall_constraints p (selects_existing (params_index_of p))), <- Forall_forall.
  rewrite (bodies_eq md p Hp), !Forall_app.
  pose proof (proj1 (process_model_accepts md Hwf) (ex_intro _ p Hp))
    as [_ [k [Hk [Hsm [[Hv1 [Hv2 _]] _]]]]].
  split; [|split; [|split; [|split; [|split; [|split]]]]].
  - rewrite (normalization_constraints_eq md p Hwf Hp).
    destruct (normalization_pairs _ _ _) as [|x ps] eqn:E; [constructor|].
    constructor; [|constructor]. unfold selects_existing. cbn [selectors]. apply HS.
    + destruct x; discriminate.
    + intros lb Hlb. apply in_map_iff in Hlb. destruct Hlb as [[lb' q] [Elb Hlb]].
      simpl in Elb. subst lb'. rewrite <- E in Hlb.
      apply (In_normalization_pairs md p Hwf Hp) in Hlb.
      destruct Hlb as [[t [f [m [-> H]]]]|[t [f [m [-> H]]]]].
      * constructor; [left; eapply Hv1; eauto|].
        destruct H as [fs [nm [l [d [Hin _]]]]]. apply in_map_iff. now exists (f, fs).
      * constructor; [exists f; left; eapply Hv2; eauto|auto].
  - assert (selected (params_index_of p) (SCat CMixWeights) <> []) as Hne.
    { rewrite (selected_weights md p Hp). destruct (n_mixtures_of md); [lia|discriminate]. }
    unfold mixture_weights_constraints. destruct (n_mixtures_of md =? 1);
      (constructor; [|constructor]); intros s [<-|[]]; (split; [exact Hne|apply HF; eauto]).
  - apply Forall_forall. intros c Hc. apply in_flat_map in Hc. destruct Hc as [st [_ Hc]].
    cbv zeta in Hc.
    destruct (1 <? length (stage_periods (stagemap_of md (n_periods (p_dims p))) st)) eqn:Hlen;
      [|destruct Hc].
    apply Nat.ltb_lt in Hlen.
    set (ps := stage_periods (stagemap_of md (n_periods (p_dims p))) st) in *.
    assert (forall t, In t ps -> t + 1 < n_periods (p_dims p)) as Hps.
    { intros t Ht. apply In_stage_periods in Ht. now apply (stagemap_period md p Hwf Hp) in Ht. }
    destruct (factors_nonempty md p Hp) as [f0 [fs0 [l0 El]]].
    destruct Hc as [<-|[<-|[]]]; intros s Hs; apply in_map_iff in Hs; destruct Hs as [t [<- Ht]];
      (split; [|apply HF; eauto]).
    + rewrite (selected_transition md p Hwf Hp) by auto.
      destruct Heq as [[f [fs [name [Hin Hname]]]]|Heq].
      * intros E.
        assert (In (CTransition, t, f, name)
          (flat_map (fun ffs => map (fun name => (CTransition, t, fst ffs, name))
               (transition_names_of md (snd ffs))) (md_factors md))) as Hx.
        { apply in_flat_map. exists (f, fs). split; [exact Hin|]. simpl. now apply in_map. }
        rewrite E in Hx. destruct Hx.
      * exfalso. assert (NoDup ps) as Hnd.
        { unfold ps, stage_periods. apply NoDup_map_inv with (f := fun x => x). rewrite map_id.
          assert (forall l : list (nat * Z), NoDup (map fst l) ->
                   forall P, NoDup (map fst (filter P l))) as G.
          { induction l as [|x l IH]; simpl; intros Hl P; [constructor|].
            inversion Hl as [|? ? Hni Hl']; subst. destruct (P x); simpl; [|auto].
            constructor; [|auto]. intros Hx. apply Hni. apply in_map_iff in Hx.
            destruct Hx as [y [Ey Hy]]. apply filter_In in Hy. apply in_map_iff.
            exists y. tauto. }
          apply G. rewrite map_fst_enumerate. apply NoDup_range. }
        destruct ps as [|a [|b ps']] eqn:Eps; simpl in Hlen; try lia.
        assert (a = b) as ->.
        { apply Heq. exists st. split; apply In_stage_periods; fold ps; rewrite Eps; simpl; auto. }
        inversion Hnd as [|? ? Hni _]. apply Hni. now left.
    + rewrite (selected_shocks md p Hp) by auto. unfold latent_of. rewrite El. discriminate.
  - apply Forall_forall. intros c Hc. apply in_flat_map in Hc. destruct Hc as [[f nm] [Hin Hc]].
    simpl in Hc. destruct (String.eqb nm "constant"); [|destruct Hc].
    apply in_map_iff in Hc. destruct Hc as [t [<- Ht]]. apply In_drop_last_range in Ht.
    intros s [<-|[]]. simpl. split; [discriminate|]. intros lb [<-|[]]. apply Hpar.
    econstructor; [exact Hn|exact Ht|]. apply in_combine_l in Hin. exact Hin.
  - unfold initial_states_constraints. destruct (1 <? n_mixtures_of md) eqn:E; [|constructor].
    constructor; [|constructor]. unfold selects_existing. cbn [selectors]. apply HS.
    + unfold range. destruct (n_mixtures_of md); [lia|discriminate].
    + intros lb Hlb. apply in_map_iff in Hlb. destruct Hlb as [e [<- He]]. apply In_range in He.
      constructor; [exact He|]. destruct (factors_nonempty md p Hp) as [f0 [fs0 [l0 El]]].
      unfold latent_of. rewrite El. simpl. auto.
  - apply Forall_forall. intros c Hc. unfold transition_constraints in Hc.
    rewrite (names_zipped md p Hwf Hp) in Hc. apply in_flat_map in Hc.
    destruct Hc as [[f nm] [Hin Hc]]. simpl in Hc.
    destruct (String.eqb_spec nm "log_ces") as [->|]; [|destruct Hc].
    apply in_map_iff in Hc. destruct Hc as [t [<- Ht]]. apply In_drop_last_range in Ht.
    unfold constraints_log_ces, params_log_ces. rewrite drop_last_snoc.
    unfold selects_existing. cbn [selectors]. apply HS.
    + unfold latent_of. destruct (factors_nonempty md p Hp) as [f0 [fs0 [l0 ->]]]. discriminate.
    + intros lb Hlb. apply in_map_iff in Hlb. destruct Hlb as [g [<- Hg]].
      apply (called_function_name md p Hwf Hp) in Hin. destruct Hin as [fs [Hin Hfs]].
      apply (par_transition md t (n_periods (p_dims p)) f fs); [exact Hn|exact Ht|exact Hin|].
      destruct Hfs as [->|[ps E]]; [|now apply (Hces _ _ ps) in Hin].
      simpl. apply in_app_iff. now left.
  - unfold anchoring_constraints. cbv zeta.
    change (filter (fun r => match u_purpose r with Some PAnchoring => true | _ => false end)
              (p_update p)) with (filter is_anchoring (p_update p)).
    assert (forall (b : bool) locs q, (forall lb, In lb locs -> is_param md lb) ->
      Forall (selects_existing (params_index_of p))
       (if negb b then match locs with [] => [] | _ => [CFixed (SLabels locs) (VScalar q)] end else []))
      as G.
    { intros b locs q Hl. destruct b; simpl; [constructor|].
      destruct locs as [|x locs]; [constructor|]. constructor; [|constructor].
      unfold selects_existing. cbn [selectors]. apply HS; [discriminate|exact Hl]. }
    rewrite !Forall_app. split; [|split]; apply G; intros lb Hlb.
    + apply in_map_iff in Hlb. destruct Hlb as [r [<- Hr]].
      destruct (proj1 (In_anchoring_rows md p Hwf Hp (u_period r) (u_var r))) as [f Hf]; [eauto|].
      constructor; [exists f; now right|auto].
    + apply in_flat_map in Hlb. destruct Hlb as [r [Hr Hlb]]. apply in_map_iff in Hlb.
      destruct Hlb as [c [<- Hc]]. apply filter_In in Hc. destruct Hc as [Hc _].
      destruct (proj1 (In_anchoring_rows md p Hwf Hp (u_period r) (u_var r))) as [f Hf]; [eauto|].
      constructor; [exists f; now right|]. destruct Hc; auto.
    + apply in_flat_map in Hlb. destruct Hlb as [t [Ht Hlb]]. apply in_map_iff in Hlb.
      destruct Hlb as [[f o] [<- Ho]].
      destruct (a_flags md p Hp) as [_ [_ [_ E]]]. rewrite E in Ho.
      assert (anchors md t f (anchoring_name o f)) as Ha.
      { apply (anchors_iff md p Hp). split; [now apply In_range|]. eauto. }
      constructor; [now right|]. destruct Ha as [_ [o' [Ha _]]]. eapply Hlat; eauto.
Qed.
Print Assumptions C14_constraints_select_parameters_partial.

Example C14_nonvacuous :
  wf_dicts stage_model /\ process_model stage_model = Ok stage_p /\ has_n_periods stage_model 4 /\
  anchored_latent stage_model /\ 1 <= n_mixtures_of stage_model /\ no_custom_log_ces stage_model /\
  equalizes_something stage_model 4 /\ get_constraints stage_p <> [].
Proof.
  split; [exact stage_model_wf|]. split; [exact stage_model_accepted|].
  split; [exact stage_model_periods|]. split; [|split; [|split; [|split]]].
  - intros f o [a [outs [[= <-] [[= <-] H]]]]. destruct H as [[= <- <-]|[[= <- <-]|[]]]; simpl; auto.
  - unfold n_mixtures_of; simpl; lia.
  - intros f fs ps [[= <- <-]|[[= <- <-]|[]]]; discriminate.
  - left. exists "cog". eexists. exists "phi". split; [left; reflexivity|]. simpl. auto.
  - vm_compute. discriminate.
Qed.

(** A model of constant factors with a repeated stage: the stage constraint for
    transition parameters selects nothing. *)
Definition constant_model : model_dict :=
  mk_md [("a", mk_factor [["m"]; ["m"]; ["m"]] (TStr "constant") None)] None None
        (Some [0; 0]%Z) None (Some (mk_opts None None None None None None None None)).

Theorem C14_refuted :
  exists md p n, wf_dicts md /\ process_model md = Ok p /\ has_n_periods md n /\
    ~ (forall c, In c (get_constraints p) -> selects_existing (params_index_of p) (c_body c)).
Proof.
  exists constant_model, (get_ok (process_model constant_model) small_p), 3.
  split; [|split; [vm_compute; reflexivity|split]].
  - split; [simpl; repeat constructor; simpl; tauto|discriminate].
  - split.
    + exists "a". eexists. split; [left; reflexivity|reflexivity].
    + intros f fs [[= <- <-]|[]]. simpl. lia.
  - intros H.
    set (c := mk_constr (CPairwiseEquality [SCatPeriod CTransition 0; SCatPeriod CTransition 1]) 1).
    assert (In c (get_constraints (get_ok (process_model constant_model) small_p))) as Hc
      by (vm_compute; auto).
    apply H in Hc. destruct (Hc (SCatPeriod CTransition 0)) as [Hne _]; [simpl; auto|].
    apply Hne. vm_compute. reflexivity.
Qed.
Print Assumptions C14_refuted.

(** ** C15: normalizations take effect in the measurement equations *)

Theorem C15_normalizations_take_effect flog md p n n_obs v ps :
  wf_dicts md -> NoDup (params_index_of p) -> process_model md = Ok p -> has_n_periods md n ->
  (forall c, In c (get_constraints p) -> satisfies (params_index_of p) v (c_body c)) ->
  parse_for 0%Q 1%Q flog p (map v (params_index_of p)) n_obs = Ok ps ->
  (forall t f m q, normalized_loading md t f m q ->
     exists i j x, nth_error (equations md n) i = Some (t, m) /\
       nth_error (latent_of md) j = Some f /\ entry (ps_loadings ps) i j x /\ (x == q)%Q) /\
  (forall t f m q, normalized_intercept md t f m q ->
     exists i x, nth_error (equations md n) i = Some (t, m) /\
       entry (ps_controls ps) i 0 x /\ (x == q)%Q).
Proof.
  intros Hwf Hu Hp Hn Hsat Hps.
  apply (C65_constraints_are_the_documented_restrictions md p n v Hwf Hp Hn) in Hsat.
  destruct Hsat as [[HL HI] _].
  destruct (C09_measurement_parameters Q 0%Q 1%Q flog md p n n_obs _ ps Hwf Hu Hp Hn
              (map_length _ _) Hps) as [_ [_ [_ [_ [Heq _]]]]].
  pose proof (proj1 (process_model_accepts md Hwf) (ex_intro _ p Hp))
    as [_ [k [Hk [_ [[Hv1 [Hv2 _]] _]]]]].
  assert (forall t m, is_equation md t m -> exists i, nth_error (equations md n) i = Some (t, m)) as He.
  { intros t m H. apply In_nth_error. rewrite <- (equations_keys md p n Hwf Hp Hn).
    now apply (In_p_update_keys md p Hwf Hp). }
  assert (forall lb x, labelled (params_index_of p) (map v (params_index_of p)) lb x -> x = v lb) as Hval.
  { intros lb x [i [H1 H2]]. rewrite (map_nth_error _ _ _ H1) in H2. congruence. }
  split.
  - intros t f m q H. destruct (Hv1 _ _ _ _ H) as [Hmeas _].
    destruct (He t m) as [i Hi]; [exists f; now left|].
    assert (In f (latent_of md)) as Hf.
    { destruct H as [fs [nm [l [d [Hin _]]]]]. apply in_map_iff. now exists (f, fs). }
    apply In_nth_error in Hf. destruct Hf as [j Hj].
    destruct (Heq i t m Hi) as [Hload _]. destruct (Hload j f Hj) as [x [Hx [Hlab _]]].
    exists i, j, x. split; [exact Hi|]. split; [exact Hj|]. split; [exact Hx|].
    rewrite (Hval _ _ (Hlab (or_introl Hmeas))). now apply HL.
  - intros t f m q H. pose proof (Hv2 _ _ _ _ H) as Hmeas.
    destruct (He t m) as [i Hi]; [exists f; now left|].
    destruct (Heq i t m Hi) as [_ [Hc _]]. destruct (Hc 0 "constant" eq_refl) as [x [Hx Hlab]].
    exists i, x. split; [exact Hi|]. split; [exact Hx|].
    rewrite (Hval _ _ Hlab). eapply HI; eauto.
Qed.
Print Assumptions C15_normalizations_take_effect.

Lemma stage_model_good_names : good_names stage_model.
Proof.
  split; [|split; [|split; [|split; [|split]]]].
  - simpl. repeat constructor; simpl; intuition discriminate.
  - intros f Hf. unfold without_char. simpl in Hf.
    destruct Hf as [<-|[<-|[]]]; simpl; intuition discriminate.
  - intros f Hf. simpl in Hf. unfold without_char.
    destruct Hf as [<-|[<-|[<-|[]]]]; (split; [simpl; intuition discriminate|]);
      (split; [simpl; intuition discriminate|]); intros g; discriminate.
  - simpl. repeat constructor; simpl; intuition discriminate.
  - simpl. intuition discriminate.
  - intros f fs nm ns [[= <- <-]|[[= <- <-]|[]]]; discriminate.
Qed.

Example C15_nonvacuous :
  wf_dicts stage_model /\ NoDup (params_index_of stage_p) /\ process_model stage_model = Ok stage_p /\
  has_n_periods stage_model 4 /\
  (forall c, In c (get_constraints stage_p) ->
     satisfies (params_index_of stage_p) stage_v (c_body c)) /\
  is_ok (parse_for 0%Q 1%Q (fun x => x) stage_p (map stage_v (params_index_of stage_p)) 2) = true /\
  normalized_loading stage_model 1 "soc" "c" 3%Q /\ normalized_intercept stage_model 0 "cog" "s" 2%Q.
Proof.
  split; [exact stage_model_wf|].
  split; [exact (idx_NoDup _ _ stage_model_wf stage_model_good_names stage_model_accepted)|].
  split; [exact stage_model_accepted|]. split; [exact stage_model_periods|].
  split; [exact stage_v_satisfies|]. split; [vm_compute; reflexivity|]. split.
  - eexists _, _, _, _. split; [right; left; reflexivity|]. split; [reflexivity|].
    split; [reflexivity|]. split; [reflexivity|]. simpl. auto.
  - eexists _, _, _, _. split; [left; reflexivity|]. split; [reflexivity|].
    split; [reflexivity|]. split; [reflexivity|]. simpl. auto.
Qed.

(** ** Single kinds of constraints *)

Section Kinds.
  Variables (md : model_dict) (p : processed) (v : label -> Q).
  Hypothesis Hwf : wf_dicts md.
  Hypothesis Hp : process_model md = Ok p.
  Let n := n_periods (p_dims p).
  Let sat := satisfies (params_index_of p) v.

  Lemma kind_normalization c : is_normalization c <-> kind c = 0.
  Proof.
    split; [intros [l [q ->]]; reflexivity|].
    destruct c as [[[]| | |] []|[[]| | |]| |]; intros H; try discriminate H. unfold is_normalization; eauto.
  Qed.
  Lemma kind_stage c : is_stage_constraint c <-> kind c = 2.
  Proof.
    split; [intros [l ->]; reflexivity|].
    destruct c as [[[]| | |] []|[[]| | |]| |]; intros H; try discriminate H. unfold is_stage_constraint; eauto.
  Qed.
  Lemma kind_anchoring c : is_anchoring_constraint c <-> kind c = 6.
  Proof.
    split; [intros [l [q ->]]; reflexivity|].
    destruct c as [[[]| | |] []|[[]| | |]| |]; intros H; try discriminate H. unfold is_anchoring_constraint; eauto.
  Qed.
  Lemma kind_mixture c : is_mixture_constraint c <-> kind c = 1 \/ kind c = 4.
  Proof.
    unfold is_mixture_constraint. split.
    - intros [[w ->]|[->|[s ->]]]; simpl; auto.
    - destruct c as [[[]| | |] []|[[]| | |]| |]; intros [H|H]; try discriminate H; eauto.
  Qed.

  Lemma by_families (K : constr_body -> Prop) :
    (forall c, In c (get_constraints p) -> K (c_body c) -> sat (c_body c)) <->
    Forall (fun c => K c -> sat c) (normalization_constraints (p_norms p) (latent_of md)) /\
    Forall (fun c => K c -> sat c) (mixture_weights_constraints (n_mixtures_of md)) /\
    Forall (fun c => K c -> sat c)
      (stage_constraints (stagemap_of md n) (zsort_unique (stagemap_of md n))) /\
    Forall (fun c => K c -> sat c)
      (constant_factors_constraints (latent_of md) (p_transition_names p) (range n)) /\
    Forall (fun c => K c -> sat c) (initial_states_constraints (n_mixtures_of md) (latent_of md)) /\
    Forall (fun c => K c -> sat c)
      (transition_constraints (latent_of md) (latent_of md ++ observed_of md)
         (p_transition_names p) (range n)) /\
    Forall (fun c => K c -> sat c)
      (anchoring_constraints (p_update p) ("constant" :: controls_of md) (p_anch p) (range n)).
  Proof.
    rewrite (forall_constraints p (fun c => K c -> sat c)), <- Forall_forall.
    now rewrite (bodies_eq md p Hp), !Forall_app.
  Qed.
End Kinds.

(** ** C16 *)
Theorem C16_stage_constraints md p n v :
  wf_dicts md -> process_model md = Ok p -> has_n_periods md n ->
  (forall c, In c (get_constraints p) -> is_stage_constraint (c_body c) ->
     satisfies (params_index_of p) v (c_body c)) <-> stages_hold md n v.
Proof.
  intros Hwf Hp Hn.
  assert (n = n_periods (p_dims p)) as ->.
  { eapply has_n_periods_fun; [exact Hn|]. now apply (n_is_n_periods md p Hp). }
  rewrite (by_families md p v Hp).
  rewrite (Forall_other_kind 0 is_stage_constraint _ _
      ltac:(intros c E H; apply kind_stage in H; lia) (kind_norm _ _)),
    (Forall_other_kind 1 is_stage_constraint _ _
      ltac:(intros c E H; apply kind_stage in H; lia) (kind_weights _)),
    (Forall_other_kind 3 is_stage_constraint _ _
      ltac:(intros c E H; apply kind_stage in H; lia) (kind_const _ _ _)),
    (Forall_other_kind 4 is_stage_constraint _ _
      ltac:(intros c E H; apply kind_stage in H; lia) (kind_means _ _)),
    (Forall_other_kind 5 is_stage_constraint _ _
      ltac:(intros c E H; apply kind_stage in H; lia) (kind_trans _ _ _ _)),
    (Forall_other_kind 6 is_stage_constraint _ _
      ltac:(intros c E H; apply kind_stage in H; lia) (kind_anch _ _ _ _)).
  rewrite (Forall_kind 2 _ _ _ (fun c => proj2 (kind_stage c)) (kind_stages _ _)).
  rewrite (sat_stages md p Hwf Hp). tauto.
Qed.
Print Assumptions C16_stage_constraints.

Example C16_nonvacuous :
  wf_dicts stage_model /\ process_model stage_model = Ok stage_p /\ has_n_periods stage_model 4 /\
  same_stage stage_model 4 0 1 /\ ~ same_stage stage_model 4 1 2.
Proof.
  split; [exact stage_model_wf|]. split; [exact stage_model_accepted|].
  split; [exact stage_model_periods|]. split.
  - exists 0%Z. split; reflexivity.
  - intros [s [H1 H2]]. vm_compute in H1, H2. congruence.
Qed.

(** ** C17 *)
Theorem C17_anchoring_restrictions md p v :
  wf_dicts md -> process_model md = Ok p ->
  (forall c, In c (get_constraints p) -> is_anchoring_constraint (c_body c) ->
     satisfies (params_index_of p) v (c_body c)) <-> anchoring_holds md v.
Proof.
  intros Hwf Hp. rewrite (by_families md p v Hp).
  rewrite (Forall_other_kind 0 is_anchoring_constraint _ _
      ltac:(intros c E H; apply kind_anchoring in H; lia) (kind_norm _ _)),
    (Forall_other_kind 1 is_anchoring_constraint _ _
      ltac:(intros c E H; apply kind_anchoring in H; lia) (kind_weights _)),
    (Forall_other_kind 2 is_anchoring_constraint _ _
      ltac:(intros c E H; apply kind_anchoring in H; lia) (kind_stages _ _)),
    (Forall_other_kind 3 is_anchoring_constraint _ _
      ltac:(intros c E H; apply kind_anchoring in H; lia) (kind_const _ _ _)),
    (Forall_other_kind 4 is_anchoring_constraint _ _
      ltac:(intros c E H; apply kind_anchoring in H; lia) (kind_means _ _)),
    (Forall_other_kind 5 is_anchoring_constraint _ _
      ltac:(intros c E H; apply kind_anchoring in H; lia) (kind_trans _ _ _ _)).
  rewrite (Forall_kind 6 _ _ _ (fun c => proj2 (kind_anchoring c)) (kind_anch _ _ _ _)).
  rewrite (sat_anchoring md p Hwf Hp). tauto.
Qed.
Print Assumptions C17_anchoring_restrictions.

Example C17_nonvacuous :
  wf_dicts stage_model /\ process_model stage_model = Ok stage_p /\
  anchors stage_model 3 "soc" "Q1_soc" /\ anch_flag stage_model as_free_loadings = false /\
  anchoring_holds stage_model stage_v.
Proof.
  split; [exact stage_model_wf|]. split; [exact stage_model_accepted|]. split; [|split].
  - split; [exists 4; split; [exact stage_model_periods|lia]|]. exists "Q1". split; [|reflexivity].
    eexists _, _. split; [reflexivity|]. split; [reflexivity|]. simpl. auto.
  - reflexivity.
  - apply (C17_anchoring_restrictions stage_model stage_p stage_v stage_model_wf stage_model_accepted).
    intros c Hc _. now apply stage_v_satisfies.
Qed.

(** ** C18 *)

Lemma o_bounds_distance_eq md p :
  process_model md = Ok p -> o_bounds_distance (p_options p) = bounds_distance_of md.
Proof.
  intros Hp. apply process_model_inv in Hp. destruct Hp as [_ [_ [_ [-> _]]]].
  unfold process_estimation_options, bounds_distance_of, get_default.
  destruct (md_options md) as [o|]; simpl; [|reflexivity].
  destruct (os_robust_bounds o) as [[]|], (os_bounds_distance o); reflexivity.
Qed.

Definition bounded (lb : label) : bool :=
  is_cat CMeasSds lb || is_cat CShockSds lb || (is_cat CInitChol lb && is_diagonal_entry lb).

Lemma params_template_eq p :
  params_template p = map (fun lb => (lb, if bounded lb then Some (o_bounds_distance (p_options p))
                                          else None)) (params_index_of p).
Proof.
  unfold params_template, add_bounds. rewrite !map_map. apply map_ext. intros lb.
  unfold bounded, is_cat. cbn [fst].
  destruct (lb_cat lb) eqn:E; cbn [fst andb orb]; rewrite ?E; cbn [fst andb orb]; rewrite ?E;
    try reflexivity.
  now destruct (is_diagonal_entry lb).
Qed.

Lemma bounded_spec md lb :
  good_names md -> is_param md lb -> (bounded lb = true <-> has_lower_bound md lb).
Proof.
  intros [_ [Hdash _]] H. unfold bounded, has_lower_bound.
  destruct H; unfold is_cat, lb_cat; cbn [fst snd orb andb];
    try (split; [discriminate|intros [E|[E|[E _]]]; discriminate]);
    try (split; [tauto|reflexivity]).
  assert (In frow (latent_of md)) as Hr by (eapply nth_error_In; eauto).
  assert (In fcol (latent_of md)) as Hc by (eapply nth_error_In; eauto).
  change (frow ++ "-" ++ fcol)%string with (cov_name frow fcol).
  rewrite is_diagonal_entry_spec by auto. split.
  - intros ->. right. right. split; [reflexivity|]. exists fcol. auto.
  - intros [E|[E|[_ [f [Hf E]]]]]; [discriminate..|].
    unfold lb_name2 in E. cbn [snd] in E. change (f ++ "-" ++ f)%string with (cov_name f f) in E.
    apply cov_name_inj in E; auto. destruct E as [-> ->]. reflexivity.
Qed.

Theorem C18_bounds_partial md p :
  wf_dicts md -> good_names md -> process_model md = Ok p ->
  map fst (params_template p) = params_index_of p /\
  (forall lb b, In (lb, b) (params_template p) ->
     (has_lower_bound md lb -> b = Some (bounds_distance_of md)) /\
     (~ has_lower_bound md lb -> b = None)).
Proof.
  intros Hwf Hg Hp. rewrite params_template_eq. split.
  - rewrite map_map. apply map_id.
  - intros lb b H. apply in_map_iff in H. destruct H as [lb' [[= <- <-] Hin]].
    apply (In_params_index md p lb' Hwf Hp) in Hin. rewrite (o_bounds_distance_eq md p Hp).
    pose proof (bounded_spec md lb' Hg Hin) as Hb. destruct (bounded lb'); split; intros H.
    + reflexivity.
    + destruct H. now apply Hb.
    + apply Hb in H. discriminate.
    + reflexivity.
Qed.
Print Assumptions C18_bounds_partial.

Example C18_nonvacuous :
  wf_dicts small_model /\ good_names small_model /\ process_model small_model = Ok small_p /\
  In ((CInitChol, 0, "mixture_1", "soc-soc"), Some (1 # 1000)) (params_template small_p) /\
  In ((CInitChol, 0, "mixture_1", "soc-cog"), None) (params_template small_p).
Proof.
  split; [exact small_model_wf|]. split; [exact small_model_good_names|].
  split; [exact small_model_accepted|]. split; vm_compute; tauto.
Qed.

(** Factor names with dashes: an off-diagonal element is bounded. *)
Definition dashed_model : model_dict :=
  mk_md [("a", mk_factor [["m"]; ["m"]] (TStr "linear") None);
         ("b-a-b", mk_factor [["k"]; ["k"]] (TStr "linear") None)] None None None None
        (Some (mk_opts None None None None None None None None)).

Theorem C18_refuted :
  exists md p lb b, wf_dicts md /\ process_model md = Ok p /\
    NoDup (params_index_of p) /\
    In (lb, Some b) (params_template p) /\ ~ has_lower_bound md lb.
Proof.
  exists dashed_model, (get_ok (process_model dashed_model) small_p),
    (CInitChol, 0, "mixture_0", "b-a-b-a"), (1 # 1000).
  split; [|split; [vm_compute; reflexivity|split; [|split]]].
  - split; [simpl; repeat constructor; simpl; intuition discriminate|discriminate].
  - apply has_dup_NoDup. vm_compute. reflexivity.
  - vm_compute. tauto.
  - intros [E|[E|[_ [f [Hf E]]]]]; [discriminate..|].
    destruct Hf as [<-|[<-|[]]]; discriminate.
Qed.
Print Assumptions C18_refuted.

(** ** C19 *)

Theorem C19_satisfiable_partial md p :
  wf_dicts md -> process_model md = Ok p ->
  consistent_normalizations md -> clean_anchoring md -> 1 <= n_mixtures_of md ->
  (bounds_distance_of md <= 0)%Q \/ (forall f, ~ transition_called md f "constant") ->
  exists v, (forall c, In c (get_constraints p) -> satisfies (params_index_of p) v (c_body c)) /\
            within_bounds (params_template p) v.
Proof.
  intros Hwf Hp Hcon Hclean Hm Hconst.
  set (s := if Qlt_le_dec 0 (bounds_distance_of md) then bounds_distance_of md else 0%Q).
  exists (witness md p s). split.
  - rewrite forall_constraints, <- Forall_forall. apply witness_satisfies; auto.
    intros f Hf. unfold s. destruct (Qlt_le_dec 0 (bounds_distance_of md)) as [Hlt|]; [|reflexivity].
    destruct Hconst as [Hle|Hno]; [|now apply Hno in Hf].
    exfalso. eapply Qlt_not_le; eauto.
  - intros lb b Hin. rewrite params_template_eq in Hin. apply in_map_iff in Hin.
    destruct Hin as [lb' [[= -> E] Hin]].
    destruct (bounded lb) eqn:Hb; [|discriminate]. injection E as <-.
    rewrite (o_bounds_distance_eq md p Hp).
    assert (bounds_distance_of md <= s)%Q as Hs.
    { unfold s. destruct (Qlt_le_dec 0 (bounds_distance_of md)); [apply Qle_refl|assumption]. }
    rewrite (witness_other md p s Hwf Hp).
    + unfold bounded, is_cat in Hb. destruct (lb_cat lb); try discriminate Hb; exact Hs.
    + intros E. unfold bounded, is_cat in Hb. rewrite E in Hb. discriminate.
    + intros E. unfold bounded, is_cat in Hb. rewrite E in Hb. discriminate.
Qed.
Print Assumptions C19_satisfiable_partial.

Example C19_nonvacuous :
  wf_dicts stage_model /\ process_model stage_model = Ok stage_p /\
  consistent_normalizations stage_model /\ clean_anchoring stage_model /\
  1 <= n_mixtures_of stage_model /\ (forall f, ~ transition_called stage_model f "constant").
Proof.
  split; [exact stage_model_wf|]. split; [exact stage_model_accepted|].
  split; [exact stage_model_consistent|]. split; [exact stage_model_clean|].
  split; [cbv; auto|exact stage_not_constant].
Qed.

(** A constant factor under the default bounds. *)
Theorem C19_refuted :
  exists md p, wf_dicts md /\ process_model md = Ok p /\
  consistent_normalizations md /\ clean_anchoring md /\ 1 <= n_mixtures_of md /\
  ~ exists v, (forall c, In c (get_constraints p) -> satisfies (params_index_of p) v (c_body c)) /\
              within_bounds (params_template p) v.
Proof.
  exists constant_model, (get_ok (process_model constant_model) small_p).
  split; [|split; [vm_compute; reflexivity|split; [|split; [|split; [cbv; auto|]]]]].
  - split; [simpl; repeat constructor; simpl; tauto|discriminate].
  - split.
    + intros t f m q q' [fs [nm [l [d [[[= <- <-]|[]] [E _]]]]]]. discriminate E.
    + intros t f f' m q q' [fs [nm [l [d [[[= <- <-]|[]] [E _]]]]]]. discriminate E.
  - split; [intros f o []|split; [constructor|intros k f o g []]].
  - intros [v [Hc Hb]].
    specialize (Hc (mk_constr (CFixed (SLabel (CShockSds, 0, "a", "-")) (VScalar 0)) 3)).
    assert ((v (CShockSds, 0%nat, "a", "-")) == 0)%Q as E.
    { apply Hc; [vm_compute; tauto|simpl; auto]. }
    specialize (Hb (CShockSds, 0, "a", "-") (1 # 1000)).
    assert ((1 # 1000) <= v (CShockSds, 0%nat, "a", "-"))%Q as Hle by (apply Hb; vm_compute; tauto).
    rewrite E in Hle. now apply Hle.
Qed.
Print Assumptions C19_refuted.

(** Two factors that share a measurement can normalize its intercept to
    different values; the model is accepted. *)
Definition contradictory_model : model_dict :=
  mk_md [("a", mk_factor [["s"]; ["s"]] (TStr "linear")
                 (Some (mk_norm None (Some [[("s", 0%Q)]]))));
         ("b", mk_factor [["s"]; ["s"]] (TStr "linear")
                 (Some (mk_norm None (Some [[("s", 1%Q)]]))))] None None None None
        (Some (mk_opts None None None None None None None None)).

Theorem C19_refuted_shared_measurement :
  exists md p, wf_dicts md /\ process_model md = Ok p /\
  clean_anchoring md /\ 1 <= n_mixtures_of md /\ (forall f, ~ transition_called md f "constant") /\
  ~ exists v, forall c, In c (get_constraints p) -> satisfies (params_index_of p) v (c_body c).
Proof.
  exists contradictory_model, (get_ok (process_model contradictory_model) small_p).
  assert (wf_dicts contradictory_model) as Hwf.
  { split; [simpl; repeat constructor; simpl; intuition discriminate|discriminate]. }
  assert (process_model contradictory_model = Ok (get_ok (process_model contradictory_model) small_p)) as Hp.
  { vm_compute. reflexivity. }
  split; [exact Hwf|]. split; [exact Hp|]. split; [|split; [cbv; auto|split]].
  - split; [intros f o []|split; [constructor|intros k f o g []]].
  - intros f [fs [[[= <- <-]|[[= <- <-]|[]]] [E|[ps E]]]]; discriminate E.
  - intros [v Hv].
    apply (C65_constraints_are_the_documented_restrictions contradictory_model _ 2) in Hv;
      [|exact Hwf|exact Hp|].
    + destruct Hv as [[_ H] _].
      assert (normalized_intercept contradictory_model 0 "a" "s" 0%Q) as H0.
      { eexists _, _, _, _. split; [left; reflexivity|]. split; [reflexivity|].
        split; [reflexivity|]. split; [reflexivity|]. simpl. auto. }
      assert (normalized_intercept contradictory_model 0 "b" "s" 1%Q) as H1.
      { eexists _, _, _, _. split; [right; left; reflexivity|]. split; [reflexivity|].
        split; [reflexivity|]. split; [reflexivity|]. simpl. auto. }
      apply H in H0, H1. rewrite H0 in H1. discriminate H1.
    + split.
      * exists "a". eexists. split; [left; reflexivity|reflexivity].
      * intros f fs [[= <- <-]|[[= <- <-]|[]]]; simpl; lia.
Qed.
Print Assumptions C19_refuted_shared_measurement.

(** ** C20 *)
Theorem C20_ids p : map c_id (get_constraints p) = seq 0 (length (get_constraints p)).
Proof.
  unfold get_constraints. rewrite map_map, map_length, enumerate_length. simpl.
  apply map_fst_enumerate.
Qed.
Print Assumptions C20_ids.

Example C20_nonvacuous : map c_id (get_constraints stage_p) = [0; 1; 2; 3; 4; 5; 6; 7; 8; 9; 10].
Proof. vm_compute. reflexivity. Qed.

(** ** C21 *)
Theorem C21_mixture_constraints md p v :
  wf_dicts md -> process_model md = Ok p ->
  (forall c, In c (get_constraints p) -> is_mixture_constraint (c_body c) ->
     satisfies (params_index_of p) v (c_body c)) <->
  mixture_weights_hold md v /\ mixtures_ordered md v.
Proof.
  intros Hwf Hp. rewrite (by_families md p v Hp).
  rewrite (Forall_other_kind 0 is_mixture_constraint _ _
      ltac:(intros c E H; apply kind_mixture in H; lia) (kind_norm _ _)),
    (Forall_other_kind 2 is_mixture_constraint _ _
      ltac:(intros c E H; apply kind_mixture in H; lia) (kind_stages _ _)),
    (Forall_other_kind 3 is_mixture_constraint _ _
      ltac:(intros c E H; apply kind_mixture in H; lia) (kind_const _ _ _)),
    (Forall_other_kind 5 is_mixture_constraint _ _
      ltac:(intros c E H; apply kind_mixture in H; lia) (kind_trans _ _ _ _)),
    (Forall_other_kind 6 is_mixture_constraint _ _
      ltac:(intros c E H; apply kind_mixture in H; lia) (kind_anch _ _ _ _)).
  rewrite (Forall_kind 1 _ _ _ (fun c H => proj2 (kind_mixture c) (or_introl H)) (kind_weights _)).
  rewrite (Forall_kind 4 _ _ _ (fun c H => proj2 (kind_mixture c) (or_intror H)) (kind_means _ _)).
  rewrite (sat_weights md p Hp), (sat_means md p Hp). tauto.
Qed.
Print Assumptions C21_mixture_constraints.

Example C21_nonvacuous :
  wf_dicts stage_model /\ process_model stage_model = Ok stage_p /\ n_mixtures_of stage_model = 2 /\
  mixture_weights_hold stage_model stage_v /\ mixtures_ordered stage_model stage_v.
Proof.
  split; [exact stage_model_wf|]. split; [exact stage_model_accepted|]. split; [reflexivity|].
  apply (C21_mixture_constraints stage_model stage_p stage_v stage_model_wf stage_model_accepted).
  intros c Hc _. now apply stage_v_satisfies.
Qed.
