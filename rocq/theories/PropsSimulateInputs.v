(** When simulations succeed and how they read the parameters: properties C67 and C69,
    and examples for C60, C61, C62 and C68. *)
Require Import Reals Qreals String Arith ZArith Bool List Lia Lra.
From Verif Require Import PyBase ListFacts ModelSpec ProcessModel CheckModel SpecModel ProcessModelFacts
  SpecParse SpecData SpecIndex IndexFacts ParamsIndex ParseParams ParamsVec PropsParse ProcessData RSum Kalman
  SpecKalman Likelihood SpecLikelihood ScheduleFacts PropsData LikelihoodFacts LikelihoodRun ExampleModels PropsSpec
  DebugData SpecDebug DebugFacts PropsDebug PropsFiltered
  PropsLikelihood Simulate SpecSimulate SimulateFacts PropsSimulate PropsPolicies.
Import ListNotations.
Open Scope string_scope.
Open Scope list_scope.
Open Scope nat_scope.

Section Success.
  Variable nan : R.
  Variable tfunc : dict (list R) -> vec -> vec.
  Context {G : Type}.
  Variable rnd : random G.

  Definition valid_policy (factors : list string) (po : policy) : Prop :=
    In (po_factor po) factors /\ (0 <= po_standard_deviation po)%R.

  Lemma apply_policies_iff factors N pos : forall X g,
    (exists r, apply_policies rnd factors N pos X g = Ok r) <-> (forall po, In po pos -> valid_policy factors po).
  Proof.
    induction pos as [|po pos IH]; intros X g; cbn [apply_policies].
    - split; [intros _ po []|eauto].
    - split.
      + intros (r & H). apply rbind_ok in H as (j & Hj & H). apply rbind_ok in H as (s & Hs & H).
        assert (Hpos : forall q, In q pos -> valid_policy factors q) by (eapply IH; eauto).
        intros q [<-|Hq]; [|auto]. split; [apply index_of_spec in Hj; now apply nth_error_In in Hj|].
        unfold get_shock in Hs. destruct (Req_EM_T _ _) as [->|_]; [lra|].
        destruct (Rlt_dec _ _); [lra|discriminate].
      + intros H. destruct (H po (or_introl eq_refl)) as [Hf Hsd].
        destruct (index_of_total _ _ Hf) as [j ->]. cbn [rbind]. unfold get_shock.
        destruct (Req_EM_T _ _) as [_|Hne]; [|destruct (Rlt_dec _ _) as [_|Hn]; [|exfalso; lra]]; cbn [rbind];
          apply IH; intros q Hq; apply H; now right.
  Qed.

  Lemma simulate_states_iff d factors N ps observed pol k : forall t X g,
    (exists r, simulate_states nan tfunc rnd d factors N ps observed pol k t X g = Ok r) <->
    (forall po, In po pol -> (Z.of_nat t <= po_period po < Z.of_nat (t + k))%Z -> valid_policy factors po).
  Proof.
    induction k as [|k IH]; intros t X g; cbn [simulate_states].
    - split; [intros _ po _ H; lia|eauto].
    - fold (policies_of pol t). split.
      + intros (r & H). apply rbind_ok in H as ([Y g1] & HY & H). apply rbind_ok in H as (r' & Hr & _).
        intros po Hin Hper. destruct (Z.eq_dec (po_period po) (Z.of_nat t)) as [E|E].
        * apply (proj1 (apply_policies_iff factors N (policies_of pol t) X g)); [eauto|].
          apply filter_In. split; [exact Hin|]. now apply Z.eqb_eq.
        * cbn [fst snd] in Hr. refine (proj1 (IH _ _ _) (ex_intro _ _ Hr) po Hin _). lia.
      + intros H. destruct (proj2 (apply_policies_iff factors N (policies_of pol t) X g)) as ([Y g1] & HY).
        { intros po Hin. apply filter_In in Hin as [Hin E]. apply Z.eqb_eq in E. apply H; [exact Hin|lia]. }
        rewrite HY. cbn [rbind fst snd].
        match goal with |- context [simulate_states nan tfunc rnd d factors N ps observed pol k (S t) ?Y' ?g'] =>
          destruct (proj2 (IH (S t) Y' g')) as (r & ->) end; [|cbn [rbind]; eauto].
        intros po Hin Hper. apply H; [exact Hin|lia].
  Qed.

  Lemma simulate_measurements_iff d N ps controls u : forall l t g,
    (exists r, simulate_measurements nan rnd d N ps controls u t l g = Ok r) <->
    (forall s, t <= s < t + length l -> loc u s <> []).
  Proof.
    induction l as [|X l IH]; intros t g; cbn [simulate_measurements length].
    - split; [intros _ s Hs; lia|eauto].
    - fold (loc u t). destruct (loc u t) as [|ku lc] eqn:El.
      + split; [intros (r & H); discriminate|]. intros H. exfalso. apply (H t); [lia|exact El].
      + rewrite data_frame_explicit by apply map_length. cbn [rbind]. split.
        * intros (r & H). apply rbind_ok in H as (r' & Hr & _).
          intros s Hs. destruct (Nat.eq_dec s t) as [->|Hne]; [congruence|].
          refine (proj1 (IH _ _) (ex_intro _ _ Hr) s _). lia.
        * intros H.
          match goal with |- context [simulate_measurements nan rnd d N ps controls u (S t) l ?g'] =>
            destruct (proj2 (IH (S t) g')) as (r & ->) end; [|cbn [rbind]; eauto].
          intros s Hs. apply H. lia.
  Qed.

  Lemma long_table_total N tables : tables <> [] -> exists tb, long_table N tables = Ok tb.
  Proof. intros H. unfold long_table, concat_sorted. destruct tables; [contradiction|]. cbn [rbind]. eauto. Qed.

  (** Random numbers by weights can be drawn for this number of mixture elements. *)
  Definition weights_accepted (md : model_dict) (n_ind : nat) (g : G) : Prop :=
    n_mixtures_of md = 1 \/ forall w, exists r, rn_choice rnd g (n_mixtures_of md) w n_ind = Ok r.

  Lemma simulate_from_iff md p n N vec0 ps controls observed policies g :
    wf_dicts md -> good_names md -> process_model md = Ok p -> has_n_periods md n ->
    length vec0 = length (params_index_of p) -> parse_for 0%R 1%R ln p vec0 N = Ok ps ->
    weights_accepted md N g ->
    (exists r, simulate_from nan tfunc rnd p N ps controls observed policies g = Ok r) <->
    (1 <= N /\ every_period_measured md n /\
     forall po, In po policies -> (0 <= po_period po < Z.of_nat n - 1)%Z -> valid_policy (latent_of md) po).
  Proof.
    intros Hwf Hg Hp Hn Hlen Hps Hw.
    destruct (C10_initial_distribution R 0%R 1%R ln md p n N vec0 ps Hwf (idx_NoDup md p Hwf Hg Hp) Hp Hn Hlen Hps)
      as (L1 & L2 & L3 & Hi).
    destruct (p_dims_eq md p Hp) as (El & _ & _ & Em & Hn' & Hn1).
    pose proof (has_n_periods_fun md _ _ Hn' Hn) as En. rewrite En in *.
    assert (Hloc : (forall s, 0 <= s < 0 + n -> loc (p_update p) s <> []) <-> every_period_measured md n).
    { assert (Hvar : forall s, loc (p_update p) s <> [] <-> exists v, In (s, v) (equations md n)).
      { intros s. destruct (loc_variables md p n s Hwf Hp Hn) as [_ Hv]. split.
        - intros H. destruct (loc (p_update p) s) as [|ku lc] eqn:E; [contradiction|].
          exists (u_var (snd ku)). apply Hv. simpl. auto.
        - intros (v & Hin) E. apply Hv in Hin. rewrite E in Hin. exact Hin. }
      split; intros H s Hs; apply Hvar; [apply H; lia|apply H; lia]. }
    unfold simulate_from. rewrite En. split.
    - intros (r & H). apply rbind_ok in H as (lw & Hlw & H).
      apply rbind_ok in H as (args & Hargs & H). apply rbind_ok in H as ([X g0] & Hst & H). cbn [fst snd] in H.
      apply rbind_ok in H as ([l g1] & Hl & H). cbn [fst snd] in H.
      apply rbind_ok in H as (tables & Hmeas & _).
      rewrite (l_latent_eq md p Hp) in Hl. split; [|split].
      + unfold nth_err in Hlw. destruct (ps_log_weights ps); [discriminate|]. simpl in L3. lia.
      + apply Hloc. pose proof (proj1 (simulate_states_spec nan tfunc rnd _ _ _ _ _ _ _ _ _ _ _ _ Hl)) as Hll.
        replace n with (length l) by lia. eapply simulate_measurements_iff. eauto.
      + intros po Hin Hper. refine (proj1 (simulate_states_iff _ _ _ _ _ _ _ _ _ _) (ex_intro _ _ Hl) po Hin _). lia.
    - intros (HN & Hev & Hpol). destruct (Hi 0 ltac:(lia)) as (st & ch & w & Est & Ech & Ew & Lst & Lch & Lw & _).
      unfold nth_err. rewrite Ew. cbn [rbind].
      unfold dist_args, nth_err. rewrite Est, Ech. cbn [rbind]. rewrite Em, El.
      match goal with |- context [generate_start_states rnd g N ?a ?b ?c] =>
        assert (exists X g0, generate_start_states rnd g N a b c = Ok (X, g0)) as (X & g0 & ->) end.
      { unfold generate_start_states. rewrite map_length, Lw. destruct (Nat.eqb_spec (n_mixtures_of md) 1) as [E|E].
        - rewrite E. cbn [range seq map]. unfold nth_err. cbn [nth_error rbind fst snd].
          match goal with |- context [Ok ?x] => exists (fst x), (snd x); destruct x end. reflexivity.
        - destruct Hw as [Hw|Hw]; [contradiction|].
          match goal with |- context [rn_choice rnd g _ ?w N] => destruct (Hw w) as ([hp gc] & ->) end.
          cbn [rbind]. eauto. }
      cbn [rbind fst snd]. rewrite (l_latent_eq md p Hp).
      destruct (proj2 (simulate_states_iff (p_dims p) (latent_of md) N ps observed policies (n - 1) 0 X g0)) as ([l g1] & Hl).
      { intros po Hin Hper. apply Hpol; [exact Hin|lia]. }
      rewrite Hl. cbn [rbind fst snd].
      pose proof (proj1 (simulate_states_spec nan tfunc rnd _ _ _ _ _ _ _ _ _ _ _ _ Hl)) as Hll.
      destruct (proj2 (simulate_measurements_iff (p_dims p) N ps controls (p_update p) l 0 g1)) as (tables & Hm).
      { replace (length l) with n by lia. now apply Hloc. }
      rewrite Hm. cbn [rbind].
      pose proof (proj1 (simulate_measurements_spec nan rnd _ _ _ _ _ _ _ _ _ Hm)) as Hlt.
      destruct (long_table_total N tables) as (obs & ->); [intros ->; rewrite Hll in Hlt; discriminate|]. cbn [rbind].
      match goal with |- context [mapM ?f (enumerate l)] => destruct (mapM_total f (enumerate l)) as (lt & Hlat) end.
      { intros ts _. rewrite data_frame_explicit by reflexivity. cbn [rbind]. eauto. }
      rewrite Hlat. cbn [rbind].
      destruct (long_table_total N lt) as (lat & ->).
      { intros ->. apply mapM_length in Hlat. rewrite enumerate_length in Hlat. destruct l; discriminate. }
      cbn [rbind]. eauto.
  Qed.
End Success.

Lemma reindex_complete nan md p params rows :
  wf_dicts md -> good_names md -> process_model md = Ok p ->
  reindex_params nan params (params_index_of p) = Ok rows -> complete_params p rows.
Proof.
  intros Hwf Hg Hp Hr. apply reindex_index in Hr. split; rewrite Hr; [|auto].
  now apply (NoDup_params_index md p).
Qed.

Lemma states_rows md n n_ind {G} (h : @history G) tb :
  1 <= n -> shows_states md n n_ind h tb ->
  forall row, In row (tb_rows tb) ->
    (exists t, t < n /\ row "period" = CInt t) /\
    forall f s, In f (latent_of md) -> row f <> CText s.
Proof.
  intros Hn1 ((Hl & Hid) & _ & Hst) row Hin. apply In_nth_error in Hin as [r Hr].
  assert (r < n_ind * n) by (rewrite <- Hl; apply nth_error_Some; congruence).
  assert (Hi : r / n < n_ind) by (apply Nat.div_lt_upper_bound; lia).
  assert (Ht : r mod n < n) by (apply Nat.mod_upper_bound; lia).
  assert (Er : r = r / n * n + r mod n) by (rewrite Nat.mul_comm; apply Nat.div_mod; lia).
  split.
  - exists (r mod n). split; [exact Ht|]. destruct (proj2 (Hid _ _ Hi Ht)) as (row' & A & B).
    rewrite <- Er, Hr in A. injection A as <-. exact B.
  - intros f s Hf E. apply In_nth_error in Hf as [j Hj]. destruct (Hst _ _ _ _ Hi Ht Hj) as (row' & A & B).
    rewrite <- Er, Hr in A. injection A as <-. congruence.
Qed.

(** * C67 *)

(** A simulation succeeds iff there are individuals, each period has a measurement, and
    the policies that are not ignored concern latent factors and have no negative
    standard deviation. *)
Theorem C67_simulation_succeeds :
  forall nan tfunc (G : Type) (rnd : random G) md p n params n_obs data n_ind controls observed rows ps policies g,
    simulation_setting nan md p n params n_obs data n_ind controls observed rows ps ->
    no_reserved_names md n -> clean_anchoring md -> weights_accepted rnd md n_ind g ->
    (exists out, simulate_dataset nan tfunc rnd md params n_obs data policies g = Ok out) <->
    ((data = None -> observed_of md = [] /\ controls_of md = []) /\
     1 <= n_ind /\ every_period_measured md n /\
     forall po, In po policies -> (0 <= po_period po < Z.of_nat n - 1)%Z ->
       In (po_factor po) (latent_of md) /\ (0 <= po_standard_deviation po)%R).
Proof.
  intros nan tfunc G rnd md p n params n_obs data n_ind controls observed rows ps policies g Hset Hres Hc Hw.
  pose proof (rows_length nan md p n params n_obs data n_ind controls observed rows ps Hset) as Hlen.
  rewrite (simulate_dataset_eq nan tfunc rnd _ _ _ _ _ _ _ _ _ _ _ _ _ Hset).
  pose proof Hset as (Hwf & Hg & Hp & Hn & _ & Hrows & Hps).
  pose proof (simulate_from_iff nan tfunc rnd md p n n_ind (map snd rows) ps controls observed policies g
                Hwf Hg Hp Hn Hlen Hps Hw) as Hiff.
  assert (Hd : is_none data && negb (is_nil (observed_of md) && is_nil (controls_of md)) = false <->
               (data = None -> observed_of md = [] /\ controls_of md = [])).
  { destruct data as [df|]; cbn [is_none andb]; [split; [discriminate|reflexivity]|].
    destruct (observed_of md); cbn [is_nil andb negb]; [destruct (controls_of md); cbn [is_nil andb negb]|];
      (split; [try discriminate; auto|]); intros H; try reflexivity; destruct (H eq_refl); discriminate. }
  destruct (_ && _) eqn:E.
  - split; [intros (out & H); discriminate|]. intros (H & _). apply Hd in H. discriminate.
  - split.
    + intros (out & H). unfold finish in H. apply rbind_ok in H as (r & Hr & _).
      split; [now apply Hd|]. apply Hiff. eauto.
    + intros (_ & H). destruct (proj2 Hiff H) as ([obs lat] & Hf). unfold finish. rewrite Hf. cbn [rbind fst snd].
      destruct (simulation_history nan tfunc rnd md p n params n_obs data n_ind controls observed rows ps Hset Hres
                  policies g _ _ Hf) as (h & _ & Hst & _).
      destruct (parse_for_needs R 0%R 1%R ln md p n n_ind (map snd rows) Hp Hn Hlen ps Hps) as [H2 Hm].
      pose proof (states_rows md n n_ind h lat ltac:(lia) Hst) as Hr.
      destruct Hst as (_ & Hcols & _).
      assert (Hnp : forall f, In f (latent_of md) -> f <> "period").
      { intros f Hin ->. exact (proj1 (Hres "period" (or_intror eq_refl)) Hin). }
      destruct (anchor_states_gen md p n rows lat (fun _ _ _ _ => True)) as (anch & -> & Hac & Hal & Har); auto.
      { now apply (reindex_complete nan md p params). }
      { apply Hcols. auto. } { intros f Hin. apply Hcols. auto. }
      cbn [rbind].
      destruct (C50_ranges_exist lat (latent_of md)) as (rg & ->).
      { apply Hcols. auto. } { intros row Hin. destruct (Hr row Hin) as [(t & _ & Et) _]. eauto. }
      { intros f Hin. split; [apply Hcols; auto|auto]. }
      cbn [rbind].
      destruct (C50_ranges_exist anch (latent_of md)) as (rg' & ->).
      { rewrite Hac. apply Hcols. auto. }
      { intros row' Hin. apply In_nth_error in Hin as [k Hk].
        destruct (nth_error (tb_rows lat) k) as [row|] eqn:Ek.
        - destruct (Har k row Ek) as (row'' & A & B & _). rewrite Hk in A. injection A as <-.
          destruct (Hr row (nth_error_In _ _ Ek)) as [(t & _ & Et) _]. exists t.
          rewrite B; [exact Et|]. intros Hin. now apply (Hnp "period").
        - apply nth_error_None in Ek. assert (k < length (tb_rows anch)) by (apply nth_error_Some; congruence). lia. }
      { intros f Hin. rewrite Hac. split; [apply Hcols; auto|auto]. }
      cbn [rbind]. eauto.
Qed.
Print Assumptions C67_simulation_succeeds.

(** The anchored states are those of C51. Missing: the anchored factors must be listed
    in the order of the latent factors, see C51_refuted. *)
Theorem C61_anchored_states_partial :
  forall nan tfunc (G : Type) (rnd : random G) md p n params n_obs data n_ind controls observed rows ps policies g out,
    simulation_setting nan md p n params n_obs data n_ind controls observed rows ps ->
    no_reserved_names md n -> clean_anchoring md -> anchored_in_order md ->
    simulate_dataset nan tfunc rnd md params n_obs data policies g = Ok out ->
    is_anchored_table md rows (si_unanchored out) (si_anchored out).
Proof.
  intros nan tfunc G rnd md p n params n_obs data n_ind controls observed rows ps policies g out Hset Hres Hc Ho H.
  destruct (C61_states_follow_model nan tfunc G rnd md p n params n_obs data n_ind controls observed rows ps
              policies g out Hset Hres H) as (h & _ & Hst & _ & Ha & _).
  pose proof (rows_length nan md p n params n_obs data n_ind controls observed rows ps Hset) as Hlen.
  pose proof Hset as (Hwf & Hg & Hp & Hn & _ & Hrows & Hps).
  destruct (parse_for_needs R 0%R 1%R ln md p n n_ind (map snd rows) Hp Hn Hlen ps Hps) as [H2 Hm].
  pose proof (states_rows md n n_ind h _ ltac:(lia) Hst) as Hr. destruct Hst as (_ & Hcols & _).
  destruct (C51_anchored_states_partial md p n rows (si_unanchored out)) as (tb & Htb & Hat); auto.
  { now apply (reindex_complete nan md p params). }
  { apply Hcols. auto. } { intros f Hin. apply Hcols. auto. }
  rewrite Htb in Ha. injection Ha as <-. exact Hat.
Qed.
Print Assumptions C61_anchored_states_partial.

(** Data for simulations must contain all variables of the measurement equations,
    although the documentation only asks for controls and observed factors and the
    values are not used. *)
Theorem C67_measurements_required :
  forall nan tfunc (G : Type) (rnd : random G) md p n params n_obs df ids lv policies g t v,
    data_setting md p n df ids lv -> unique_index df ->
    (forall f o, anchored md f o -> In o (fr_columns df)) ->
    (forall t x pr, t < n -> ~ has_problem 1%R md n df ids lv false t x pr) ->
    In (t, v) (equations md n) -> ~ available md df v ->
    simulate_dataset nan tfunc rnd md params n_obs (Some df) policies g = Err KeyError.
Proof.
  intros nan tfunc G rnd md p n params n_obs df ids lv policies g t v Hd Hu Ho Hnp Hin Hav.
  pose proof (C28_check_exact 1%R req md p n df ids lv false req_spec Hd) as (_ & _ & [_ HK] & _).
  cbv zeta in HK. unfold simulate_dataset. cbn [is_none andb].
  assert (Hp : process_model md = Ok p) by apply Hd. rewrite Hp. cbn [rbind]. rewrite !andb_false_r, HK; [reflexivity|].
  split; [exact Hu|]. right. split.
  - intros (t' & x & pr & Ht & H). exact (Hnp t' x pr Ht H).
  - intros H. exact (Hav (H t v Hin)).
Qed.
Print Assumptions C67_measurements_required.

(** * C69 *)

Lemma row_value_self {A} (rows : list (label * A)) lb x :
  NoDup (map fst rows) -> In (lb, x) rows -> row_value rows lb = Some x.
Proof. intros H Hin. now apply row_value_In. Qed.

Lemma reindex_by_label nan params target :
  NoDup (map fst params) ->
  reindex_params nan params target
  = Ok (map (fun lb => (lb, match row_value params lb with Some x => x | None => nan end)) target).
Proof.
  intros Hnd. unfold reindex_params. destruct (labels_eqb (map fst params) target) eqn:E.
  - apply labels_eqb_spec in E. subst target. f_equal. rewrite map_map.
    rewrite <- (map_id params) at 1. apply map_ext_in. intros [lb x] Hin. cbn [fst].
    now rewrite (row_value_self params lb x Hnd Hin).
  - now rewrite (proj2 (has_dup_NoDup _) Hnd).
Qed.

Lemma reindex_reversed nan rows target :
  map fst rows = target -> NoDup target -> reindex_params nan (rev rows) target = Ok rows.
Proof.
  intros Hfst Hnd.
  assert (Hnd' : NoDup (map fst (rev rows))) by (rewrite map_rev, Hfst; now apply NoDup_rev).
  rewrite reindex_by_label by exact Hnd'. f_equal. rewrite <- Hfst, map_map. etransitivity; [|apply map_id].
  apply map_ext_in. intros [lb x] Hin. cbn [fst].
  rewrite (row_value_self (rev rows) lb x Hnd'); [reflexivity|]. now rewrite <- in_rev.
Qed.

(** The parameters are read by label. Neither their order nor additional parameters
    matter. *)
Theorem C69_params_by_label :
  forall nan tfunc (G : Type) (rnd : random G) md p params params' n_obs data policies g,
    process_model md = Ok p -> NoDup (map fst params) -> NoDup (map fst params') ->
    (forall lb x, In lb (params_index_of p) -> In (lb, x) params <-> In (lb, x) params') ->
    simulate_dataset nan tfunc rnd md params n_obs data policies g
    = simulate_dataset nan tfunc rnd md params' n_obs data policies g.
Proof.
  intros nan tfunc G rnd md p params params' n_obs data policies g Hp H1 H2 Hsame.
  assert (E : reindex_params nan params (params_index_of p) = reindex_params nan params' (params_index_of p)).
  { rewrite !reindex_by_label by assumption. f_equal. apply map_ext_in. intros lb Hlb. f_equal.
    destruct (row_value params lb) as [x|] eqn:E1; destruct (row_value params' lb) as [y|] eqn:E2; try reflexivity.
    - apply row_value_In, Hsame in E1; [|assumption|assumption]. apply row_value_In in E1; [|assumption]. congruence.
    - apply row_value_In, Hsame in E1; [|assumption|assumption]. apply row_value_In in E1; [|assumption]. congruence.
    - apply row_value_In, Hsame in E2; [|assumption|assumption]. apply row_value_In in E2; [|assumption]. congruence. }
  unfold simulate_dataset. rewrite Hp. cbn [rbind]. rewrite E. reflexivity.
Qed.
Print Assumptions C69_params_by_label.

(** A missing parameter is not noticed: its value is NaN. *)
Theorem C69_missing_params_are_nan :
  forall nan tfunc (G : Type) (rnd : random G) md p params n_obs data policies g lb,
    process_model md = Ok p -> NoDup (map fst params) -> ~ In lb (map fst params) ->
    simulate_dataset nan tfunc rnd md params n_obs data policies g
    = simulate_dataset nan tfunc rnd md ((lb, nan) :: params) n_obs data policies g.
Proof.
  intros nan tfunc G rnd md p params n_obs data policies g lb Hp Hnd Hno.
  assert (E : reindex_params nan params (params_index_of p)
              = reindex_params nan ((lb, nan) :: params) (params_index_of p)).
  { rewrite !reindex_by_label; [|simpl; now constructor|assumption]. f_equal. apply map_ext_in. intros lb' Hlb'. f_equal.
    assert (Hnd' : NoDup (map fst ((lb, nan) :: params))) by (simpl; now constructor).
    destruct (row_value params lb') as [x|] eqn:E1; destruct (row_value ((lb, nan) :: params) lb') as [y|] eqn:E2;
      try reflexivity.
    - apply row_value_In in E1; [|assumption]. apply row_value_In in E2; [|assumption].
      destruct E2 as [[= <- <-]|E2].
      + exfalso. apply Hno. apply in_map_iff. now exists (lb, x).
      + apply row_value_In in E1; [|assumption]. apply row_value_In in E2; [|assumption]. congruence.
    - apply row_value_In in E1; [|assumption]. assert (E3 : In (lb', x) ((lb, nan) :: params)) by now right.
      apply row_value_In in E3; [|assumption]. congruence.
    - apply row_value_In in E2; [|assumption]. destruct E2 as [[= _ <-]|E2]; [reflexivity|].
      apply row_value_In in E2; [|assumption]. congruence. }
  unfold simulate_dataset. rewrite Hp. cbn [rbind]. rewrite E. reflexivity.
Qed.
Print Assumptions C69_missing_params_are_nan.

(** Duplicate labels are rejected. *)
Theorem C69_duplicate_params :
  forall nan tfunc (G : Type) (rnd : random G) md params n_obs data policies g out,
    wf_dicts md -> good_names md -> ~ NoDup (map fst params) ->
    simulate_dataset nan tfunc rnd md params n_obs data policies g <> Ok out.
Proof.
  intros nan tfunc G rnd md params n_obs data policies g out Hwf Hg Hdup H. unfold simulate_dataset in H.
  destruct (_ && _); [discriminate|]. apply rbind_ok in H as (p & Hp & H).
  destruct (_ && _); [discriminate|]. destruct (_ && _); [discriminate|].
  apply rbind_ok in H as (inputs & _ & H). apply rbind_ok in H as (rows & Hr & _).
  unfold reindex_params in Hr. destruct (labels_eqb _ _) eqn:E.
  - apply labels_eqb_spec in E. apply Hdup. rewrite E. now apply (NoDup_params_index md p).
  - destruct (has_dup (map fst params)) eqn:Ed; [discriminate|]. now apply has_dup_NoDup in Ed.
Qed.
Print Assumptions C69_duplicate_params.

(** * Examples *)

(** A generator without randomness: draws are equal to the means and all individuals
    belong to the first mixture element. *)
Definition no_random : random unit :=
  mk_random (fun g _ mean _ _ => (fun _ => mean, g)) (fun g mean _ _ => (fun _ => mean, g))
    (fun g _ _ _ => Ok (fun _ => 0, g)).

Lemma no_random_ok : no_variance_no_noise no_random.
Proof. intros g d mean cv size i j Hi Hj Hv. reflexivity. Qed.

Definition single_rows : list (label * R) := combine (params_index_of single_p) single_params.

Definition ex_policies : list policy :=
  [mk_policy 0 "soc" 2 0; mk_policy 1 "cog" 3 1; mk_policy 2 "nobody" 1 (-1)].

Lemma single_simulation : exists controls observed ps,
  simulation_setting 0%R single_model single_p 3 (rev single_rows) None (Some (real_frame ex_df)) 4
    controls observed single_rows ps.
Proof.
  assert (Hset : data_setting single_model single_p 3 (real_frame ex_df) ex_ids ex_lv)
    by (apply real_setting, single_setting).
  assert (exists ar, process_data 1%R req (real_frame ex_df) (p_labels single_p) (p_update single_p)
                       (p_anch single_p) false = Ok ar) as (ar & Har).
  { destruct single_example as (ar & ps & H).
    pose proof (C28_check_exact 1%R req _ _ _ _ _ _ true req_spec Hset) as ([HT _] & _).
    pose proof (C28_check_exact 1%R req _ _ _ _ _ _ false req_spec Hset) as ([_ HF] & _).
    cbv zeta in HT, HF. apply HF. destruct HT as (A & B & C & D); [exists ar; apply H|].
    repeat (split; [assumption|]). split; [|exact D].
    intros (t & x & pr & Ht & Hpr). apply C. exists t, x, pr. split; [exact Ht|].
    inversion Hpr; subst; try discriminate; [now apply control_missing|now apply observed_absent|].
    eapply observed_incomplete; eauto. }
  assert (Hnd : NoDup (params_index_of single_p)).
  { apply (NoDup_params_index single_model single_p); [apply single_setting|exact small_model_good_names|
      exact single_model_accepted]. }
  assert (Hl : length single_params = length (params_index_of single_p)).
  { unfold single_params. now rewrite map_length, seq_length. }
  assert (Hfst : map fst single_rows = params_index_of single_p).
  { unfold single_rows. clear -Hl. revert Hl. generalize single_params. generalize (params_index_of single_p).
    induction l as [|x l IH]; intros [|y l'] H; simpl in *; try discriminate; [reflexivity|].
    rewrite IH; [reflexivity|lia]. }
  assert (Hsnd : map snd single_rows = single_params).
  { unfold single_rows. clear -Hl. revert Hl. generalize single_params. generalize (params_index_of single_p).
    induction l as [|x l IH]; intros [|y l'] H; simpl in *; try discriminate; [reflexivity|].
    rewrite IH; [reflexivity|lia]. }
  destruct (C09_parsing_succeeds R 0%R 1%R ln single_model single_p 3 4 single_params) as [ps Hps].
  - apply single_setting.
  - apply (idx_NoDup single_model single_p); [apply single_setting|exact small_model_good_names|exact single_model_accepted].
  - exact single_model_accepted.
  - exact small_model_periods.
  - exact Hl.
  - exact small_model_clean.
  - lia.
  - apply Nat.leb_le. reflexivity.
  - exists (fun t => oarr2 (nth t (ar_controls ar) [])), (fun t => oarr2 (nth t (ar_observed ar) [])), ps.
    split; [apply single_setting|]. split; [exact small_model_good_names|]. split; [exact single_model_accepted|].
    split; [exact small_model_periods|]. split; [|split].
    + exists ar. split; [exact Har|]. split; [|split; reflexivity].
      destruct (C29_controls_and_observed_by_label 1%R req _ _ _ _ _ _ false ar req_spec Hset Har)
        as ((L1 & L2 & _) & _).
      change 4 with (length ex_ids). symmetry. apply L2. apply nth_In. lia.
    + exact (reindex_reversed 0%R single_rows _ Hfst Hnd).
    + rewrite Hsnd. exact Hps.
Qed.

Lemma single_reserved : no_reserved_names single_model 3.
Proof.
  intros c [-> | ->]; (split; [simpl; intuition discriminate|]); intros t Hin;
    assert (E : existsb (fun e => String.eqb (snd e) "id" || String.eqb (snd e) "period") (equations single_model 3) = false)
      by (vm_compute; reflexivity);
    assert (E' : existsb (fun e => String.eqb (snd e) "id" || String.eqb (snd e) "period") (equations single_model 3) = true)
      by (apply existsb_exists; eexists; split; [exact Hin|reflexivity]); congruence.
Qed.

(** The hypotheses of C60, C61, C62, C67, C68 and C69 hold for a model with two latent
    factors, an observed factor, a control, anchoring and three periods, and parameters
    in reverse order: it can be simulated with and without a policy. *)
Example simulation_nonvacuous : forall tfunc, exists controls observed ps out out',
  simulation_setting 0%R single_model single_p 3 (rev single_rows) None (Some (real_frame ex_df)) 4
    controls observed single_rows ps /\
  no_reserved_names single_model 3 /\ clean_anchoring single_model /\ anchored_in_order single_model /\
  weights_accepted no_random single_model 4 tt /\ no_variance_no_noise no_random /\
  In "soc" (latent_of single_model) /\
  simulate_dataset 0%R tfunc no_random single_model (rev single_rows) None (Some (real_frame ex_df))
    (tl ex_policies) tt = Ok out /\
  simulate_dataset 0%R tfunc no_random single_model (rev single_rows) None (Some (real_frame ex_df))
    ex_policies tt = Ok out'.
Proof.
  intros tfunc. destruct single_simulation as (controls & observed & ps & H).
  assert (Hin : In "soc" (latent_of single_model)) by (vm_compute; tauto).
  assert (Hin' : In "cog" (latent_of single_model)) by (vm_compute; tauto).
  assert (Hw : weights_accepted no_random single_model 4 tt) by (left; reflexivity).
  assert (Hev : every_period_measured single_model 3).
  { intros t Ht. exists "a"%string. destruct t as [|[|[|t]]]; [vm_compute; tauto..|lia]. }
  assert (Hok : forall policies, incl policies ex_policies -> exists out,
    simulate_dataset 0%R tfunc no_random single_model (rev single_rows) None (Some (real_frame ex_df)) policies tt
    = Ok out).
  { intros policies Hpol.
    apply (C67_simulation_succeeds 0%R tfunc unit no_random _ _ _ _ _ _ _ _ _ _ _ policies tt H single_reserved
             small_model_clean Hw).
    split; [discriminate|]. split; [lia|]. split; [exact Hev|].
    intros po Hpo Hper. apply Hpol in Hpo. destruct Hpo as [<-|[<-|[<-|[]]]]; cbn in Hper |- *;
      [split; [exact Hin|lra]|split; [exact Hin'|lra]|lia]. }
  destruct (Hok (tl ex_policies)) as (out & E1); [intros po Hpo; now right|].
  destruct (Hok ex_policies) as (out' & E2); [apply incl_refl|].
  exists controls, observed, ps, out, out'. split; [exact H|]. split; [exact single_reserved|].
  split; [exact small_model_clean|]. split; [vm_compute; reflexivity|]. split; [exact Hw|].
  split; [exact no_random_ok|]. split; [exact Hin|]. split; [exact E1|exact E2].
Qed.

(** The example data set without the column of the measurement "b". *)
Definition no_b_df : frame Z :=
  mk_frame (filter (fun c => negb (String.eqb c "b")) (fr_columns ex_df)) (fr_id_level ex_df)
    (fr_period_level ex_df) (fr_rows ex_df).

Example C67_measurements_required_nonvacuous : forall tfunc params policies,
  simulate_dataset 0%R tfunc no_random single_model params None (Some (real_frame no_b_df)) policies tt
  = Err KeyError.
Proof.
  intros tfunc params policies. destruct single_setting as (S1 & S2 & S3 & S4 & S5 & S6 & S7).
  assert (Hset : data_setting single_model single_p 3 (real_frame no_b_df) ex_ids ex_lv).
  { apply real_setting. repeat (split; [assumption|]). assumption. }
  destruct single_example as (ar & ps & H).
  pose proof (C28_check_exact 1%R req _ _ _ _ _ _ true req_spec (real_setting _ _ _ _ _ _ single_setting)) as ([HT _] & _).
  cbv zeta in HT. destruct HT as (A & _ & C & _); [exists ar; apply H|].
  apply (C67_measurements_required 0%R tfunc unit no_random single_model single_p 3 params None (real_frame no_b_df)
           ex_ids ex_lv policies tt 2 "b" Hset).
  - exact A.
  - intros f o Ho. apply anchored_outcomes in Ho. destruct Ho as [[= <- <-]|[[= <- <-]|[]]]; vm_compute; tauto.
  - intros t x pr Ht Hpr. apply C. exists t, x, pr. split; [exact Ht|].
    assert (Hav : forall y, y <> "b" -> available single_model (real_frame no_b_df) y <->
                            available single_model (real_frame ex_df) y).
    { intros y Hy. unfold available. change (fr_columns (real_frame no_b_df))
        with (filter (fun c => negb (String.eqb c "b")) (fr_columns (real_frame ex_df))).
      rewrite filter_In. rewrite (proj2 (String.eqb_neq _ _) Hy). cbn [negb]. tauto. }
    destruct Hpr as [c Hc Hx|v He|v r He|f Hf Hx|f id Hf Hx Hid Hnone];
      [|discriminate He|discriminate He| |].
    + apply control_missing; [exact Hc|]. rewrite <- Hav; [exact Hx|]. destruct Hc as [<-|[<-|[]]]; discriminate.
    + apply observed_absent; [exact Hf|]. rewrite <- Hav; [exact Hx|]. destruct Hf as [<-|[]]; discriminate.
    + eapply observed_incomplete; [exact Hf| |exact Hid|exact Hnone].
      rewrite <- Hav; [exact Hx|]. destruct Hf as [<-|[]]; discriminate.
  - vm_compute. tauto.
  - intros [Hin|[E|Hin]]; [|discriminate|]; vm_compute in Hin; intuition discriminate.
Qed.
