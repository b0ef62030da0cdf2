(** Parameters of reduced models meet the constraints of the reduced models (C117). *)
Require Import String Arith ZArith QArith Bool List Lia.
From Verif Require Import PyBase ListFacts StringFacts ModelSpec ProcessModel CheckModel SpecModel ProcessModelFacts AcceptFacts
  ParamsIndex SpecIndex IndexFacts ParseParams ParamsVec Constraints SpecConstraints ConstraintFacts ExampleModels PropsSpec PropsParse PropsConstraints
  Utilities SpecUtilities UtilitiesFacts PropsUtilities SpecSteps StepFacts PropsSteps SpecReduced.
Import ListNotations.
Open Scope string_scope.
Open Scope list_scope.
Open Scope nat_scope.

(** ** Restrictions of the smaller model are restrictions of the larger one *)

Record fewer (md' md : model_dict) : Prop := {
  fe_latent : sublist (latent_of md') (latent_of md);
  fe_observed : observed_of md' = observed_of md;
  fe_controls : incl (controls_of md') (controls_of md);
  fe_mixtures : n_mixtures_of md' = n_mixtures_of md;
  fe_anchored : forall f o, anchored md' f o -> anchored md f o /\ forall get,
    In get [as_free_constant; as_free_controls; as_free_loadings] -> anch_flag md' get = anch_flag md get;
  fe_loadings : forall t f m q, normalized_loading md' t f m q -> normalized_loading md t f m q;
  fe_intercepts : forall t f m q, normalized_intercept md' t f m q -> normalized_intercept md t f m q;
  fe_stages : forall n n' t t', n' <= n -> same_stage md' n' t t' -> same_stage md n t t';
  fe_called : forall f x, x = "constant" \/ x = "log_ces" -> transition_called md' f x -> transition_called md f x;
  fe_factors : forall f fs', In (f, fs') (md_factors md') -> exists fs, In (f, fs) (md_factors md) /\
    length (fs_measurements fs') <= length (fs_measurements fs) /\
    incl (transition_parameters (latent_of md' ++ observed_of md') (fs_transition fs'))
         (transition_parameters (latent_of md ++ observed_of md) (fs_transition fs)) }.

Lemma fewer_refl md : fewer md md.
Proof.
  constructor; auto; try apply sublist_refl; try apply incl_refl.
  - intros n n' t t' L (s & H1 & H2). exists s. unfold stagemap_of in *. destruct (md_stagemap md) as [sm|]; [auto|].
    assert (G : forall i, nth_error (map Z.of_nat (seq 0 (n' - 1))) i = Some s -> nth_error (map Z.of_nat (seq 0 (n - 1))) i = Some s).
    { intros i H. assert (Hi : i < n' - 1).
      { pose proof (nth_error_Some (map Z.of_nat (seq 0 (n' - 1))) i) as [G _]. rewrite map_length, seq_length in G. apply G. now rewrite H. }
      rewrite nth_error_map in *. destruct (nth_error (seq 0 (n' - 1)) i) as [x|] eqn:E; [|discriminate].
      assert (x = i) as -> by (apply (nth_error_nth _ _ 0) in E; rewrite seq_nth in E by exact Hi; lia).
      destruct (nth_error (seq 0 (n - 1)) i) as [y|] eqn:E'.
      - assert (y = i) as -> by (apply (nth_error_nth _ _ 0) in E'; rewrite seq_nth in E' by lia; lia). exact H.
      - apply nth_error_None in E'. rewrite seq_length in E'. lia. }
    split; now apply G.
  - intros f fs H. exists fs. split; [exact H|]. split; [lia|apply incl_refl].
Qed.

Lemma fewer_trans a b c : fewer a b -> fewer b c -> fewer a c.
Proof.
  intros [A1 A2 A3 A4 A5 A6 A7 A8 A9 A10] [B1 B2 B3 B4 B5 B6 B7 B8 B9 B10]. constructor.
  - exact (sublist_trans _ _ _ A1 B1).
  - congruence.
  - exact (incl_tran A3 B3).
  - congruence.
  - intros f o H. destruct (A5 f o H) as [H1 F1]. destruct (B5 f o H1) as [H2 F2]. split; [exact H2|].
    intros get Hg. rewrite (F1 get Hg). now apply F2.
  - auto.
  - auto.
  - intros n n' t t' L H. apply (B8 n n' t t' L). exact (A8 n' n' t t' (le_n n') H).
  - auto.
  - intros f fs H. destruct (A10 f fs H) as (gs & Hg & L1 & P1). destruct (B10 f gs Hg) as (hs & Hh & L2 & P2).
    exists hs. split; [exact Hh|]. split; [lia|exact (incl_tran P1 P2)].
Qed.

Lemma nth_firstn {A} (l : list A) k t x : nth_error (firstn k l) t = Some x -> nth_error l t = Some x.
Proof. revert k t. induction l as [|y l IH]; intros [|k] [|t] H; cbn in *; try discriminate; try exact H. exact (IH k t H). Qed.

(** What a step leaves of the normalizations of a factor. *)
Lemma norm_left s md (get : norm_spec -> option (list (dict Q))) fs nm' l' t d v q :
  In get [ns_loadings; ns_intercepts] ->
  fs_norm (ch_factor (step_change s md) fs) = Some nm' -> get nm' = Some l' -> nth_error l' t = Some d -> In (v, q) d ->
  exists nm l d0, fs_norm fs = Some nm /\ get nm = Some l /\ nth_error l t = Some d0 /\ In (v, q) d0.
Proof.
  intros Hget Hn Hl Ht Hd.
  assert (S : forall k, fs_norm (short_factor k fs) = Some nm' ->
    exists nm l d0, fs_norm fs = Some nm /\ get nm = Some l /\ nth_error l t = Some d0 /\ In (v, q) d0).
  { intros k Hk. unfold short_factor in Hk. cbn [fs_norm] in Hk. destruct (fs_norm fs) as [nm|]; [|discriminate]. injection Hk as <-.
    exists nm. destruct Hget as [<-|[<-|[]]]; cbn in Hl; [destruct (ns_loadings nm) as [l|]|destruct (ns_intercepts nm) as [l|]];
      try discriminate; injection Hl as <-; exists l, d; split; try reflexivity; split; try reflexivity; (split; [exact (nth_firstn _ _ _ _ Ht)|exact Hd]). }
  destruct s as [a|a|a|k|]; cbn [step_change ch_factor] in Hn.
  - exact (S _ Hn).
  - unfold reduced_factor in Hn. cbn [fs_norm] in Hn. destruct (fs_norm fs) as [nm|]; [|discriminate]. injection Hn as <-.
    exists nm. destruct Hget as [<-|[<-|[]]]; cbn in Hl; [destruct (ns_loadings nm) as [l|]|destruct (ns_intercepts nm) as [l|]];
      try discriminate; injection Hl as <-; unfold remove_from_normalizations in Ht; rewrite nth_error_map in Ht;
      (destruct (nth_error l t) as [d0|] eqn:E; [|discriminate]); injection Ht as <-; apply remove_from_dict_In in Hd as [Hd _];
      exists l, d0; auto.
  - exists nm', l', d. auto.
  - exact (S _ Hn).
  - exists nm', l', d. auto.
Qed.

Lemma transition_left s md fs : fs_transition (ch_factor (step_change s md) fs) = fs_transition fs \/
  (fs_transition fs = TStr "translog" /\ fs_transition (ch_factor (step_change s md) fs) = TStr "linear").
Proof.
  destruct s as [a|a|a|k|]; try (left; reflexivity). cbn [step_change ch_factor]. unfold switch_transition. cbn [fs_transition].
  destruct (fs_transition fs) as [x| |]; try (left; reflexivity). destruct (String.eqb x "translog") eqn:E; [|left; reflexivity].
  apply String.eqb_eq in E as ->. right. auto.
Qed.

Lemma fewer_after s md : positive_step s -> 1 <= most_periods (remove_from_dict (md_factors md) (gone s)) -> fewer (after_step s md) md.
Proof.
  intros Hs Hm. constructor.
  - apply latent_sublist.
  - reflexivity.
  - intros c. exact (sublist_In _ _ c (controls_sublist s md)).
  - reflexivity.
  - intros f o (an & outs & E & Eo & Hin).
    assert (D : md_anchoring (after_step s md) = md_anchoring md \/ exists a, s = RemoveFactors a).
    { destruct s as [a|a|a|k|]; [right; now exists a|left; reflexivity..]. }
    destruct D as [D|[a ->]].
    + split; [exists an, outs; split; [congruence|auto]|]. intros get _. unfold anch_flag. now rewrite D.
    + change (md_anchoring (after_step (RemoveFactors a) md)) with (less_anchoring a (md_anchoring md)) in E.
      unfold anch_flag. change (md_anchoring (after_step (RemoveFactors a) md)) with (less_anchoring a (md_anchoring md)).
      unfold anchored. unfold less_anchoring in *. destruct (md_anchoring md) as [a0|]; [|discriminate].
      destruct (as_outcomes a0) as [outs0|] eqn:E0.
      * destruct (remove_from_dict outs0 a) as [|x l] eqn:Er; [discriminate|]. injection E as <-. cbn [as_outcomes] in Eo. injection Eo as <-.
        split.
        -- exists a0, outs0. split; [reflexivity|]. split; [exact E0|]. rewrite <- Er in Hin. now apply remove_from_dict_In in Hin as [Hin _].
        -- intros get [<-|[<-|[<-|[]]]]; reflexivity.
      * injection E as <-. congruence.
  - intros t f m q (fs' & nm & l & d & Hin & Hn & Hl & Ht & Hd). apply after_step_inv in Hin as (fs & Hin & _ & ->).
    destruct (norm_left s md ns_loadings fs nm l t d m q (or_introl eq_refl) Hn Hl Ht Hd) as (nm0 & l0 & d0 & G). exists fs, nm0, l0, d0. auto.
  - intros t f m q (fs' & nm & l & d & Hin & Hn & Hl & Ht & Hd). apply after_step_inv in Hin as (fs & Hin & _ & ->).
    destruct (norm_left s md ns_intercepts fs nm l t d m q (or_intror (or_introl eq_refl)) Hn Hl Ht Hd) as (nm0 & l0 & d0 & G). exists fs, nm0, l0, d0. auto.
  - intros n n' t t' L (z & H1 & H2). apply (fe_stages md md (fewer_refl md) n n' t t' L). exists z.
    assert (S : forall k i, 1 <= k -> nth_error (match short_stages k (md_stagemap md) with Some sm => sm | None => map Z.of_nat (seq 0 (n' - 1)) end) i = Some z ->
      nth_error (stagemap_of md n') i = Some z).
    { intros k i Hk H. unfold stagemap_of. unfold short_stages in H. destruct (md_stagemap md) as [sm|]; cbn [option_map] in H; [|exact H].
      replace (Z.of_nat k - 1)%Z with (Z.of_nat (k - 1)) in H by lia. rewrite shorten_nonneg in H. exact (nth_firstn _ _ _ _ H). }
    destruct s as [a|a|a|k|]; try (split; [exact H1|exact H2]).
    + split; apply (S (most_periods (remove_from_dict (md_factors md) a))); assumption.
    + split; apply (S k); assumption.
  - intros f x Hx (fs' & Hin & Ht). apply after_step_inv in Hin as (fs & Hin & _ & ->). exists fs. split; [exact Hin|].
    destruct (transition_left s md fs) as [E|[_ E]]; rewrite E in Ht; [exact Ht|].
    destruct Ht as [Ht|[ps Ht]]; [|discriminate]. injection Ht as <-. destruct Hx; discriminate.
  - intros f fs' Hin. apply after_step_inv in Hin as (fs & Hin & _ & ->). exists fs. split; [exact Hin|]. split; [apply change_shrinks|].
    change (observed_of (after_step s md)) with (observed_of md).
    assert (I : forall t, incl (transition_parameters (latent_of (after_step s md) ++ observed_of md) t) (transition_parameters (latent_of md ++ observed_of md) t)).
    { intros t. apply sublist_transition_parameters, sublist_app, latent_sublist. }
    destruct (transition_left s md fs) as [->|[E ->]]; [apply I|]. rewrite E. exact (incl_tran (I (TStr "linear")) (linear_in_translog _)).
Qed.

Lemma fewer_periods md' md n' n : fewer md' md -> has_n_periods md' n' -> has_n_periods md n -> n' <= n.
Proof.
  intros H [(f & fs' & Hin & <-) _] [_ Hle]. destruct (fe_factors _ _ H f fs' Hin) as (fs & Hfs & L & _). specialize (Hle f fs Hfs). lia.
Qed.

Lemma alive_most s steps md : alive (s :: steps) md -> 1 <= most_periods (remove_from_dict (md_factors md) (gone s)).
Proof.
  intros (f & fs & Hin & Hm & Hn). apply nonempty_length in Hm. transitivity (length (fs_measurements fs)); [exact Hm|].
  apply (most_In _ f). apply remove_from_dict_In. split; [exact Hin|exact (not_gone steps s f Hn)].
Qed.

Lemma fewer_steps steps : forall md, Forall positive_step steps -> alive steps md -> fewer (after_steps steps md) md.
Proof.
  unfold after_steps. induction steps as [|s steps IH]; intros md Hp Ha; [apply fewer_refl|]. cbn [fold_left].
  inversion Hp as [|? ? P1 P2]; subst. apply (fewer_trans _ (after_step s md)).
  - apply IH; [exact P2|now apply alive_step].
  - apply fewer_after; [exact P1|exact (alive_most s steps md Ha)].
Qed.

(** Values that meet the restrictions of the larger model meet those of the smaller one. *)
Lemma fewer_constraints md p md' p' v : fewer md' md -> wf_dicts md -> process_model md = Ok p -> wf_dicts md' -> process_model md' = Ok p' ->
  shares_kept md md' -> order_kept md md' -> meets_constraints p v -> meets_constraints p' v.
Proof.
  intros F Hwf Hp Hwf' Hp' Hs Ho Hv. unfold meets_constraints in *.
  assert (X : forall m q, process_model m = Ok q -> exists k, has_n_periods m k) by (intros m q Hq; eexists; exact (n_is_n_periods m q Hq)).
  destruct (X md p Hp) as [n Hn]. destruct (X md' p' Hp') as [n' Hn'].
  pose proof (fewer_periods _ _ _ _ F Hn' Hn) as L.
  apply (C65_constraints_are_the_documented_restrictions md p n v Hwf Hp Hn) in Hv as (V1 & V2 & V3 & V4 & V5 & V6 & V7).
  apply (C65_constraints_are_the_documented_restrictions md' p' n' v Hwf' Hp' Hn').
  destruct F as [F1 F2 F3 F4 F5 F6 F7 F8 F9 F10].
  assert (A : forall t f m, anchors md' t f m -> anchors md t f m /\ forall get, In get [as_free_constant; as_free_controls; as_free_loadings] -> anch_flag md' get = anch_flag md get).
  { intros t f m ((k & Hk & Hlt) & o & Ha & E). destruct (F5 f o Ha) as [Ha' Hg]. split; [|exact Hg]. split; [|now exists o].
    exists n. split; [exact Hn|]. rewrite (has_n_periods_fun _ _ _ Hk Hn') in Hlt. lia. }
  split; [|split; [|split; [|split; [|split; [|split]]]]].
  - destruct V1 as [V1 V1']. split; [intros t f m q H; apply (V1 t f m q); auto|intros t f m q H; apply (V1' t f m q); auto].
  - unfold mixture_weights_hold in *. now rewrite F4.
  - intros t t' H. apply (F8 n n' t t' L) in H. destruct (V3 t t' H) as [G1 G2]. split.
    + intros f fs' name Hin Hname. destruct (F10 f fs' Hin) as (fs & Hfs & _ & Hi). apply (G1 f fs name Hfs). now apply Hi.
    + intros f Hf. apply G2. exact (sublist_In _ _ f F1 Hf).
  - intros t f Ht Hc. apply V4; [lia|]. apply F9; auto.
  - intros e f He Hf. rewrite F4 in He. destruct Ho as [Ho|Ho]; [lia|]. apply V5; [exact He|congruence].
  - intros t f Ht Hc. destruct Hs as [Hs|Hs]; [|now destruct (Hs f)]. rewrite Hs, F2. apply V6; [lia|]. apply F9; auto.
  - destruct V7 as (W1 & W2 & W3). split; [|split].
    + intros E t f m Ha. destruct (A t f m Ha) as [Ha' Hg]. apply (W1 ltac:(rewrite <- Hg; [exact E|now left]) t f m Ha').
    + intros E t f m c Ha Hc Hne. destruct (A t f m Ha) as [Ha' Hg].
      apply (W2 ltac:(rewrite <- Hg; [exact E|right; now left]) t f m c Ha' (F3 c Hc) Hne).
    + intros E t f m Ha. destruct (A t f m Ha) as [Ha' Hg]. apply (W3 ltac:(rewrite <- Hg; [exact E|right; right; now left]) t f m Ha').
Qed.

Lemma wf_steps steps : forall md, wf_dicts md -> wf_dicts (after_steps steps md).
Proof. unfold after_steps. induction steps as [|s steps IH]; intros md H; [exact H|]. cbn [fold_left]. apply IH. now apply wf_after. Qed.

(** ** The values of a reduced table *)

(** If a table meets the constraints of a model, the table that any sequence of reductions
    returns holds the same values and they meet the constraints of the reduced model,
    provided that the restrictions across factors concern the same factors. Without this
    proviso it is false, see below. *)
Theorem C117_reduced_params_meet_constraints_partial :
  forall md p params v steps md' t' p',
    wf_dicts md -> good_names md -> process_model md = Ok p -> covers md params -> In "value" (pf_columns params) ->
    positive_periods steps -> do_steps steps md (Some params) = Ok (md', Some t') -> process_model md' = Ok p' ->
    shares_kept md md' -> order_kept md md' ->
    values_are params v -> meets_constraints p v ->
    values_are t' v /\ meets_constraints p' v.
Proof.
  intros md p params v steps md' t' p' Hwf Hg Hp Hc Hcol Hpos H Hp' Hs Ho Hval Hv.
  assert (Hr : ready md p params) by exact (conj Hwf (conj Hg (conj Hp (conj Hc Hcol)))). pose proof (positive_all steps Hpos) as P.
  pose proof (steps_result steps md _ _ _ H) as E. split.
  - destruct steps as [|s rest]; [cbn in H; injection H as <- <-; exact Hval|].
    destruct (steps_table (s :: rest) md p params md' (Some t') Hr P ltac:(discriminate) H) as (t & p1 & [= <-] & _ & _ & [_ D]).
    intros lb cells' Hrow. destruct (D lb cells' Hrow) as (cells & Hin & Ec). pose proof (Hval lb cells Hin) as Ev.
    rewrite (Ec "value" Hcol), Ev. now destruct (existsb fills (s :: rest)).
  - apply (fewer_constraints md p md' p' v); auto.
    + rewrite E. apply fewer_steps; [exact P|]. apply (accepted_alive steps md p'). now rewrite <- E.
    + rewrite E. now apply wf_steps.
Qed.
Print Assumptions C117_reduced_params_meet_constraints_partial.

(** ** The values of an extended table *)

Lemma same_stage_periods md p n t t' : wf_dicts md -> process_model md = Ok p -> has_n_periods md n -> same_stage md n t t' -> t + 1 < n /\ t' + 1 < n.
Proof.
  intros Hwf Hp Hn (s & H1 & H2). pose proof (proj1 (accepted_iff md Hwf) (ex_intro _ p Hp)) as (_ & k & Hk & Hst & _).
  rewrite (has_n_periods_fun _ _ _ Hk Hn) in Hst.
  assert (L : length (stagemap_of md n) = n - 1).
  { unfold stagemap_of in *. destruct (md_stagemap md) as [sm|]; [|now rewrite map_length, seq_length]. apply Hst. }
  assert (t < length (stagemap_of md n)) by (apply nth_error_Some; congruence).
  assert (t' < length (stagemap_of md n)) by (apply nth_error_Some; congruence). lia.
Qed.

Lemma unique_factor (d : dict factor_spec) f x y : NoDup (map fst d) -> In (f, x) d -> In (f, y) d -> x = y.
Proof.
  induction d as [|[k z] d IH]; [intros _ []|]. cbn [map fst]. intros Hd [[= -> ->]|H1] [[= <-]|H2]; inversion Hd as [|? ? N D]; subst.
  - reflexivity.
  - destruct N. now apply (in_map fst) in H2.
  - destruct N. subst. now apply (in_map fst) in H1.
  - now apply IH.
Qed.

Lemma row_value_in (t : pframe) lb : In lb (pf_index t) <-> row_value (pf_rows t) lb <> None.
Proof.
  unfold pf_index. induction (pf_rows t) as [|[l c] rows IH]; cbn [map fst In row_value]; [split; [intros []|congruence]|].
  destruct (label_eqb lb l) eqn:E.
  - apply label_eqb_spec in E. subst l. split; [discriminate|now left].
  - rewrite <- IH. split; [intros [->|H]; [now rewrite (proj2 (label_eqb_spec lb lb) eq_refl) in E|exact H]|now right].
Qed.

(** Switching to translog adds transition parameters only. *)
Lemma switched_labels md n lb : has_n_periods md n -> lb_cat lb <> CTransition ->
  is_param (map_factors (switch_transition "linear" "translog") md) lb -> is_param md lb.
Proof.
  set (md' := map_factors (switch_transition "linear" "translog") md). intros Hn C Hlb.
  assert (Ln : forall f fs', In (f, fs') (md_factors md') <-> exists fs, In (f, fs) (md_factors md) /\ fs' = switch_transition "linear" "translog" fs).
  { intros f fs'. cbn [md_factors map_factors md']. rewrite in_map_iff. split.
    - intros ([g gs] & [= <- <-] & Hin). exists gs. auto.
    - intros (fs & Hin & ->). exists (f, fs). auto. }
  assert (Hn' : has_n_periods md' n).
  { destruct Hn as [(f & fs & Hin & E) Hle]. split.
    - exists f, (switch_transition "linear" "translog" fs). split; [apply Ln; exists fs; auto|exact E].
    - intros g gs Hg. apply Ln in Hg as (fs1 & Hg & ->). exact (Hle g fs1 Hg). }
  assert (El : latent_of md' = latent_of md) by apply map_factors_latent.
  assert (I : forall t f m, involves md' t f m -> involves md t f m).
  { intros t f m [(fs' & ms & Hin & Ht & Hm)|((k & Hk & Hlt) & o & Ha & Eq)].
    - left. apply Ln in Hin as (fs & Hin & ->). exists fs, ms. auto.
    - right. split; [exists n; split; [exact Hn|]; now rewrite (has_n_periods_fun _ _ _ Hk Hn') in Hlt|]. now exists o. }
  destruct Hlb as [t m c [f Hf] Hc|t m f Hf Hl|t m [f Hf]|t f k Hk Ht Hf|e f He Hf|e He|e row col a b He Hrow Hb Hle|t k f fs name Hk Ht Hin Hname];
    try (now destruct C); rewrite ?El in *.
  - apply par_control; [exists f; auto|exact Hc].
  - apply par_loading; auto.
  - apply par_meas_sd. exists f. auto.
  - apply (par_shock_sd md t f n); [exact Hn| |exact Hf]. now rewrite (has_n_periods_fun _ _ _ Hk Hn') in Ht.
  - now apply par_initial_mean.
  - now apply par_mixture_weight.
  - now apply (par_initial_chol md e row col a b).
Qed.

(** Switching to translog adds parameters with the same value to all periods, so the
    extended table meets the constraints of the larger model. *)
Theorem C117_extended_params_meet_constraints :
  forall md p params v md' t' p',
    wf_dicts md -> process_model md = Ok p -> NoDup (pf_index params) -> (forall lb, In lb (pf_index params) <-> is_param md lb) ->
    In "value" (pf_columns params) ->
    switch_linear_to_translog md (Some params) = Ok (md', Some t') -> process_model md' = Ok p' ->
    values_are params v -> meets_constraints p v ->
    exists v', values_are t' v' /\ meets_constraints p' v' /\
      (forall lb, is_param md lb -> v' lb = v lb) /\ (forall lb, is_param md' lb -> ~ is_param md lb -> v' lb = (5 # 100)%Q).
Proof.
  intros md p params v md' t' p' Hwf Hp Hnd Hidx Hcol H Hp' Hval Hv.
  destruct (C53_extended_partial md p params Hwf Hp Hnd Hcol) as (md1 & p1 & t1 & E & Hp1 & Hi & [_ Hext] & Hsub).
  assert (Emd : md' = map_factors (switch_transition "linear" "translog") md) by exact (with_params_model _ _ _ _ _ H).
  rewrite H in E. injection E as <- <-. assert (p1 = p') as -> by congruence. clear Hp1.
  assert (Hwf' : wf_dicts md') by (rewrite Emd; now apply map_factors_wf).
  assert (X : forall m q, process_model m = Ok q -> exists k, has_n_periods m k) by (intros m q Hq; eexists; exact (n_is_n_periods m q Hq)).
  destruct (X md p Hp) as [n Hn].
  assert (Ln : forall f fs', In (f, fs') (md_factors md') <-> exists fs, In (f, fs) (md_factors md) /\ fs' = switch_transition "linear" "translog" fs).
  { intros f fs'. rewrite Emd. cbn [md_factors map_factors]. rewrite in_map_iff. split.
    - intros ([g gs] & [= <- <-] & Hin). exists gs. auto.
    - intros (fs & Hin & ->). exists (f, fs). auto. }
  assert (Hn' : has_n_periods md' n).
  { destruct Hn as [(f & fs & Hin & E) Hle]. split.
    - exists f, (switch_transition "linear" "translog" fs). split; [apply Ln; exists fs; auto|exact E].
    - intros g gs Hg. apply Ln in Hg as (fs1 & Hg & ->). exact (Hle g fs1 Hg). }
  assert (El : latent_of md' = latent_of md) by (rewrite Emd; apply map_factors_latent).
  assert (Eo : observed_of md' = observed_of md) by now rewrite Emd.
  assert (Ec : controls_of md' = controls_of md) by now rewrite Emd.
  assert (Em : n_mixtures_of md' = n_mixtures_of md) by now rewrite Emd.
  assert (Ea : md_anchoring md' = md_anchoring md) by now rewrite Emd.
  assert (Es : stagemap_of md' n = stagemap_of md n) by now rewrite Emd.
  assert (Ha : forall t f m, anchors md' t f m -> anchors md t f m).
  { intros t f m ((k & Hk & Hlt) & o & (an & outs & E1 & E2 & E3) & Eq). split.
    - exists n. split; [exact Hn|]. now rewrite (has_n_periods_fun _ _ _ Hk Hn') in Hlt.
    - exists o. split; [|exact Eq]. exists an, outs. rewrite Ea in E1. auto. }
  assert (Hidx' : forall lb, In lb (pf_index t') <-> is_param md' lb) by (intros lb; rewrite Hi; now apply (In_params_index md' p' lb)).
  assert (Dec : forall lb, is_param md lb \/ ~ is_param md lb).
  { intros lb. rewrite <- Hidx. destruct (row_value (pf_rows params) lb) as [c|] eqn:Er; [left|right]; [apply row_value_in; congruence|].
    intros Hin. now apply row_value_in in Hin. }
  set (v' := fun lb => match row_value (pf_rows params) lb, row_value (pf_rows t') lb with None, Some _ => (5 # 100)%Q | _, _ => v lb end).
  assert (Hold : forall lb, is_param md lb -> v' lb = v lb).
  { intros lb Hlb. unfold v'. destruct (row_value (pf_rows params) lb) eqn:Er; [reflexivity|]. apply Hidx, row_value_in in Hlb. contradiction. }
  assert (Hnew : forall lb, is_param md' lb -> ~ is_param md lb -> v' lb = (5 # 100)%Q).
  { intros lb Hlb Hno. unfold v'. rewrite <- Hidx in Hno. destruct (row_value (pf_rows params) lb) eqn:Ep; [destruct Hno; apply row_value_in; congruence|].
    destruct (row_value (pf_rows t') lb) eqn:Er; [reflexivity|]. apply Hidx', row_value_in in Hlb. contradiction. }
  assert (Hout : forall lb, (is_param md' lb -> is_param md lb) -> v' lb = v lb).
  { intros lb Hlb. destruct (Dec lb) as [D|D]; [now apply Hold|]. unfold v'. destruct (row_value (pf_rows params) lb); [reflexivity|].
    destruct (row_value (pf_rows t') lb) eqn:Er; [|reflexivity]. exfalso. apply D, Hlb, Hidx', row_value_in. congruence. }
  assert (Hcat : forall lb, lb_cat lb <> CTransition -> v' lb = v lb).
  { intros lb C. apply Hout. intros Hlb. rewrite Emd in Hlb. exact (switched_labels md n lb Hn C Hlb). }
  exists v'. split; [|split; [|split; [exact Hold|exact Hnew]]].
  - intros lb cells' Hrow. destruct (Hext lb cells' "value" Hrow Hcol) as [G1 G2]. destruct (Dec lb) as [D|D].
    + rewrite (Hold lb D). apply Hidx in D. apply in_map_iff in D as ([l c] & El' & Hin). cbn in El'. subst l.
      destruct (G1 c Hin) as [G _]. rewrite G; rewrite (Hval lb c Hin); [reflexivity|discriminate].
    + rewrite (G2 (fun Hin => D (proj1 (Hidx lb) Hin))). rewrite (Hnew lb); [reflexivity| |exact D]. apply Hidx'. now apply (in_map fst) in Hrow.
  - unfold meets_constraints in *.
    apply (C65_constraints_are_the_documented_restrictions md p n v Hwf Hp Hn) in Hv as (V1 & V2 & V3 & V4 & V5 & V6 & V7).
    apply (C65_constraints_are_the_documented_restrictions md' p' n v' Hwf' Hp' Hn').
    assert (Call : forall f x, x <> "translog" -> transition_called md' f x -> transition_called md f x).
    { intros f x Hx (fs' & Hin & Ht). apply Ln in Hin as (fs & Hin & ->). exists fs. split; [exact Hin|].
      unfold switch_transition in Ht. cbn [fs_transition] in Ht. destruct (fs_transition fs) as [y| |]; try exact Ht.
      destruct (String.eqb y "linear"); [|exact Ht]. destruct Ht as [Ht|[ps Ht]]; [|discriminate]. injection Ht as Ht. congruence. }
    split; [|split; [|split; [|split; [|split; [|split]]]]].
    + destruct V1 as [V1 V1']. split; intros t f m q (fs' & nm & l & d & Hin & G); apply Ln in Hin as (fs & Hin & ->); rewrite Hcat by discriminate;
        [apply (V1 t f m q)|apply (V1' t f m q)]; exists fs, nm, l, d; auto.
    + unfold mixture_weights_hold, weight in *. rewrite Em. destruct V2 as [W1 W2]. split.
      * intros E. rewrite Hcat by discriminate. now apply W1.
      * intros E. specialize (W2 E). erewrite map_ext; [exact W2|]. intros e. now rewrite Hcat by discriminate.
    + intros t u Hst. assert (Hst' : same_stage md n t u) by (unfold same_stage in *; now rewrite Es in Hst).
      destruct (same_stage_periods md p n t u Hwf Hp Hn Hst') as [Lt Lu]. destruct (V3 t u Hst') as [G1 G2]. split.
      * intros f fs' name Hin Hname.
        assert (Q : forall s, s + 1 < n -> is_param md' (CTransition, s, f, name)) by (intros s Ls; now apply (par_transition md' s n f fs' name)).
        assert (Z : forall s s', s' + 1 < n -> is_param md (CTransition, s, f, name) -> is_param md (CTransition, s', f, name)).
        { intros s s' L Hpar. inversion Hpar as [| | | | | | |? ? ? gs ? Hk Ht Hg Hx]; subst. now apply (par_transition md s' n f gs name). }
        destruct (Dec (CTransition, t, f, name)) as [Pt|Nt].
        -- rewrite (Hold _ Pt), (Hold _ (Z t u Lu Pt)). inversion Pt as [| | | | | | |? ? ? gs ? Hk Ht Hg Hx]; subst. now apply (G1 f gs name).
        -- rewrite (Hnew _ (Q t Lt) Nt), (Hnew _ (Q u Lu) (fun Pu => Nt (Z u t Lt Pu))). reflexivity.
      * intros f Hf. rewrite !Hcat by discriminate. apply G2. now rewrite El in Hf.
    + intros t f Ht Hc. rewrite Hcat by discriminate. apply V4; [exact Ht|]. apply (Call f "constant"); [discriminate|exact Hc].
    + intros e f He Hf. rewrite !Hcat by discriminate. rewrite Em in He. rewrite El in Hf. now apply V5.
    + intros t f Ht Hc. rewrite El, Eo. apply (Call f "log_ces") in Hc; [|discriminate]. specialize (V6 t f Ht Hc).
      assert (R : map (fun g => v' (CTransition, t, f, g)) (latent_of md ++ observed_of md) = map (fun g => v (CTransition, t, f, g)) (latent_of md ++ observed_of md)).
      { apply map_ext. intros g. apply Hout. intros Hpar. inversion Hpar as [| | | | | | |? k ? fs' ? Hk Hlt Hg Hx]; subst. clear Hpar.
        apply Ln in Hg as (gs & Hg & ->). destruct Hc as (fs & Hfs & Hcall).
        assert (gs = fs) as -> by exact (unique_factor (md_factors md) f gs fs (proj1 Hwf) Hg Hfs).
        apply (par_transition md t n f fs g); [exact Hn|exact Ht|exact Hfs|]. rewrite El, Eo in Hx.
        destruct Hcall as [Hcall|[ps Hcall]]; unfold switch_transition in Hx; cbn [fs_transition] in Hx; rewrite Hcall in *; exact Hx. }
      now rewrite R.
    + destruct V7 as (W1 & W2 & W3). assert (Ef : forall get, anch_flag md' get = anch_flag md get) by (intros get; unfold anch_flag; now rewrite Ea).
      split; [|split].
      * intros E t f m Hx. rewrite Hcat by discriminate. rewrite Ef in E. apply (W1 E t f m). now apply Ha.
      * intros E t f m c Hx Hc Hne. rewrite Hcat by discriminate. rewrite Ef in E. rewrite Ec in Hc. apply (W2 E t f m c); auto.
      * intros E t f m Hx. rewrite Hcat by discriminate. rewrite Ef in E. apply (W3 E t f m). now apply Ha.
Qed.
Print Assumptions C117_extended_params_meet_constraints.

(** ** Examples and counterexamples *)

Lemma Forall2_b {A B} (R : A -> B -> Prop) (r : A -> B -> bool) (l : list A) (l' : list B) : (forall a b, r a b = true <-> R a b) ->
  Forall2 R l l' <-> (length l =? length l') && forallb (fun ab => r (fst ab) (snd ab)) (combine l l') = true.
Proof.
  intros H. revert l'. induction l as [|x l IH]; intros [|y l']; cbn.
  - split; [reflexivity|constructor].
  - split; [intros F; inversion F|discriminate].
  - split; [intros F; inversion F|discriminate].
  - specialize (IH l'). apply iff_trans with (R x y /\ Forall2 R l l').
    + split; [intros F; inversion F; subst; auto|intros [? ?]; now constructor].
    + rewrite IH, <- H, !andb_true_iff. tauto.
Qed.

Fixpoint increasing_b (qs : list Q) : bool :=
  match qs with
  | x :: ((y :: _) as qs') => Qle_bool x y && increasing_b qs'
  | _ => true
  end.

Lemma increasing_iff qs : increasing qs <-> increasing_b qs = true.
Proof.
  induction qs as [|x [|y qs] IH]; [cbn; tauto|cbn; tauto|].
  change ((x <= y)%Q /\ increasing (y :: qs) <-> Qle_bool x y && increasing_b (y :: qs) = true).
  rewrite andb_true_iff, Qle_bool_iff, IH. reflexivity.
Qed.

Definition satisfies_b (idx : list label) (v : label -> Q) (c : constr_body) : bool :=
  match c with
  | CFixed s (VScalar q) => forallb (fun lb => Qeq_bool (v lb) q) (selected idx s)
  | CFixed s (VList qs) => (length (selected idx s) =? length qs) && forallb (fun ab => Qeq_bool (v (fst ab)) (snd ab)) (combine (selected idx s) qs)
  | CProbability s => forallb (Qle_bool 0) (map v (selected idx s)) && Qeq_bool (fold_right Qplus 0%Q (map v (selected idx s))) 1
  | CPairwiseEquality ss => forallb (fun s1 => forallb (fun s2 => (length (selected idx s1) =? length (selected idx s2)) &&
      forallb (fun ab => Qeq_bool (v (fst ab)) (v (snd ab))) (combine (selected idx s1) (selected idx s2))) ss) ss
  | CIncreasing s => increasing_b (map v (selected idx s))
  end.

Lemma satisfies_iff idx v c : satisfies idx v c <-> satisfies_b idx v c = true.
Proof.
  destruct c as [s [q|qs]|s|ss|s]; cbn [satisfies satisfies_b].
  - rewrite forallb_forall. split; intros H lb Hlb; apply Qeq_bool_iff; now apply H.
  - apply (Forall2_b _ (fun a b => Qeq_bool (v a) b)). intros a b. apply Qeq_bool_iff.
  - unfold is_probability. rewrite andb_true_iff, Qeq_bool_iff, forallb_forall, Forall_forall.
    split; intros [H1 H2]; (split; [|exact H2]); intros q Hq; apply Qle_bool_iff; now apply H1.
  - rewrite forallb_forall. split.
    + intros H s1 Hs1. apply forallb_forall. intros s2 Hs2. apply (Forall2_b (fun a b => v a == v b)%Q (fun a b => Qeq_bool (v a) (v b))); [intros; apply Qeq_bool_iff|now apply H].
    + intros H s1 s2 Hs1 Hs2. specialize (H s1 Hs1). rewrite forallb_forall in H.
      apply (Forall2_b (fun a b => v a == v b)%Q (fun a b => Qeq_bool (v a) (v b))); [intros; apply Qeq_bool_iff|now apply H].
  - apply increasing_iff.
Qed.

Lemma meets_iff p v : meets_constraints p v <-> forallb (fun c => satisfies_b (params_index_of p) v (c_body c)) (get_constraints p) = true.
Proof. unfold meets_constraints. rewrite forallb_forall. split; intros H c Hc; apply satisfies_iff; now apply H. Qed.

(** Values for the model with repeated stages: shares of one half and twice one quarter,
    the components ordered by the first factor and not by the second. *)
Definition stage_v (lb : label) : Q :=
  match lb with
  | (CLoadings, t, m, _) => if ((t =? 1) && String.eqb m "c")%bool then 3 else 1
  | (CControls, _, m, _) => if String.eqb m "s" then 2 else 0
  | (CMixWeights, _, _, _) => 1 # 2
  | (CInitStates, _, m, f) => if Bool.eqb (String.eqb m "mixture_1") (String.eqb f "cog") then 1 else 0
  | (CTransition, _, _, x) => if String.eqb x "cog" then 1 # 2 else if (String.eqb x "soc" || String.eqb x "inc")%bool then 1 # 4 else 0
  | _ => 1
  end%Q.

Definition table_of (index : list label) (v : label -> Q) : pframe := mk_pframe ["value"] (map (fun lb => (lb, fun _ => PNum (v lb))) index).

Lemma table_index index v : pf_index (table_of index v) = index.
Proof. unfold pf_index, table_of. cbn [pf_rows]. rewrite map_map. apply map_id. Qed.

Lemma table_covers md p v : wf_dicts md -> good_names md -> process_model md = Ok p -> covers md (table_of (params_index_of p) v).
Proof.
  intros Hwf Hg Hp. split; rewrite table_index; [now apply (NoDup_params_index md)|]. intros lb Hlb. now apply (In_params_index md p lb Hwf Hp).
Qed.

Lemma table_values index v : values_are (table_of index v) v.
Proof. intros lb cells H. cbn in H. apply in_map_iff in H as (x & [= <- <-] & _). reflexivity. Qed.

(** Shares of log_ces no longer add up to one if a factor is removed. *)
Theorem C117_removed_share_refuted :
  exists md p params v a md' t' p',
    wf_dicts md /\ good_names md /\ process_model md = Ok p /\ covers md params /\ In "value" (pf_columns params) /\
    remove_factors (One a) md (Some params) = Ok (md', Some t') /\ process_model md' = Ok p' /\ order_kept md md' /\
    values_are params v /\ meets_constraints p v /\ values_are t' v /\ ~ meets_constraints p' v.
Proof.
  exists stage_model, stage_p, (table_of (params_index_of stage_p) stage_v), stage_v, "soc". do 3 eexists.
  split; [exact stage_model_wf|]. split; [exact stage_model_good_names|]. split; [exact stage_model_accepted|].
  split; [exact (table_covers _ _ _ stage_model_wf stage_model_good_names stage_model_accepted)|]. split; [now left|].
  split; [vm_compute; reflexivity|]. split; [vm_compute; reflexivity|]. split; [right; reflexivity|].
  split; [apply table_values|]. split; [apply meets_iff; vm_compute; reflexivity|].
  split; [|rewrite meets_iff; vm_compute; discriminate].
  intros lb cells H. cbn in H. repeat destruct H as [H|H]; try (injection H as <- <-; reflexivity). destruct H.
Qed.
Print Assumptions C117_removed_share_refuted.

(** Components are ordered by another factor if the first factor is removed. *)
Theorem C117_removed_order_refuted :
  exists md p params v a md' t' p',
    wf_dicts md /\ good_names md /\ process_model md = Ok p /\ covers md params /\ In "value" (pf_columns params) /\
    remove_factors (One a) md (Some params) = Ok (md', Some t') /\ process_model md' = Ok p' /\ shares_kept md md' /\
    values_are params v /\ meets_constraints p v /\ values_are t' v /\ ~ meets_constraints p' v.
Proof.
  exists stage_model, stage_p, (table_of (params_index_of stage_p) stage_v), stage_v, "cog". do 3 eexists.
  split; [exact stage_model_wf|]. split; [exact stage_model_good_names|]. split; [exact stage_model_accepted|].
  split; [exact (table_covers _ _ _ stage_model_wf stage_model_good_names stage_model_accepted)|]. split; [now left|].
  split; [vm_compute; reflexivity|]. split; [vm_compute; reflexivity|].
  split; [right; intros f (fs & Hin & Ht); cbn in Hin; destruct Hin as [Hin|[]]; injection Hin as <- <-; destruct Ht as [Ht|[ps Ht]]; discriminate|].
  split; [apply table_values|]. split; [apply meets_iff; vm_compute; reflexivity|].
  split; [|rewrite meets_iff; vm_compute; discriminate].
  intros lb cells H. cbn in H. repeat destruct H as [H|H]; try (injection H as <- <-; reflexivity). destruct H.
Qed.
Print Assumptions C117_removed_order_refuted.

Definition reduced_steps : list reduction_step := [RemoveMeasurements (One "b"); ReducePeriods 3; RemoveControls (One "x2")].

Example C117_nonvacuous :
  let params := table_of (params_index_of stage_p) stage_v in
  wf_dicts stage_model /\ good_names stage_model /\ process_model stage_model = Ok stage_p /\ covers stage_model params /\
  In "value" (pf_columns params) /\ positive_periods reduced_steps /\
  values_are params stage_v /\ meets_constraints stage_p stage_v /\
  (exists md' t' p', do_steps reduced_steps stage_model (Some params) = Ok (md', Some t') /\ process_model md' = Ok p' /\
     shares_kept stage_model md' /\ order_kept stage_model md' /\ 0 < length (get_constraints p') /\
     length (params_index_of p') < length (params_index_of stage_p)).
Proof.
  cbv zeta. split; [exact stage_model_wf|]. split; [exact stage_model_good_names|]. split; [exact stage_model_accepted|].
  split; [exact (table_covers _ _ _ stage_model_wf stage_model_good_names stage_model_accepted)|]. split; [now left|].
  split; [intros k Hk; cbn in Hk; repeat destruct Hk as [Hk|Hk]; try discriminate Hk; [injection Hk as <-; lia|destruct Hk]|].
  split; [apply table_values|]. split; [apply meets_iff; vm_compute; reflexivity|].
  do 3 eexists. split; [vm_compute; reflexivity|]. split; [vm_compute; reflexivity|]. split; [left; reflexivity|]. split; [right; reflexivity|].
  split; apply Nat.ltb_lt; vm_compute; reflexivity.
Qed.

Example C117_extended_nonvacuous :
  let params := table_of (params_index_of stage_p) stage_v in
  NoDup (pf_index params) /\ (forall lb, In lb (pf_index params) <-> is_param stage_model lb) /\ In "value" (pf_columns params) /\
  values_are params stage_v /\ meets_constraints stage_p stage_v /\
  (exists md' t' p', switch_linear_to_translog stage_model (Some params) = Ok (md', Some t') /\ process_model md' = Ok p' /\
     length (params_index_of stage_p) < length (params_index_of p')).
Proof.
  cbv zeta. pose proof (table_covers _ _ stage_v stage_model_wf stage_model_good_names stage_model_accepted) as [Hnd _].
  split; [exact Hnd|]. split; [intros lb; rewrite table_index; exact (In_params_index _ _ lb stage_model_wf stage_model_accepted)|]. split; [now left|].
  split; [apply table_values|]. split; [apply meets_iff; vm_compute; reflexivity|].
  do 3 eexists. split; [vm_compute; reflexivity|]. split; [vm_compute; reflexivity|]. apply Nat.ltb_lt; vm_compute; reflexivity.
Qed.
