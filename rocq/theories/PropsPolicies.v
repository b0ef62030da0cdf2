(** Policies in simulations: property C62. *)
Require Import Reals Qreals String Arith ZArith Bool List Lia Lra.
From Verif Require Import PyBase ListFacts ModelSpec ProcessModel CheckModel SpecModel ProcessModelFacts
  SpecParse SpecData SpecIndex IndexFacts ParamsIndex ParseParams ParamsVec PropsParse ProcessData RSum Kalman
  SpecKalman Likelihood SpecLikelihood ScheduleFacts DebugData SpecDebug DebugFacts PropsFiltered
  Simulate SpecSimulate SimulateFacts PropsSimulate.
Import ListNotations.
Open Scope string_scope.
Open Scope list_scope.
Open Scope nat_scope.

Section Policies.
  Variable nan : R.
  Variable tfunc : dict (list R) -> vec -> vec.
  Context {G : Type}.
  Variable rnd : random G.

  Lemma apply_policies_app factors N a : forall b X g,
    apply_policies rnd factors N (a ++ b) X g
    = do r <- apply_policies rnd factors N a X g; apply_policies rnd factors N b (fst r) (snd r).
  Proof.
    induction a as [|po a IH]; intros b X g; [reflexivity|]. cbn [app apply_policies].
    destruct (index_of factors (po_factor po)) as [j|e]; [cbn [rbind]|reflexivity].
    destruct (get_shock rnd g (po_effect_size po) (po_standard_deviation po) N) as [s|e]; [|reflexivity].
    cbn [rbind]. apply IH.
  Qed.

  (** Errors and random numbers do not depend on the states. *)
  Lemma apply_policies_indep factors N pos : forall X X' g Y g',
    apply_policies rnd factors N pos X g = Ok (Y, g') ->
    exists Y', apply_policies rnd factors N pos X' g = Ok (Y', g') /\
      forall i f, (Y' i f - Y i f = X' i f - X i f)%R.
  Proof.
    induction pos as [|po pos IH]; intros X X' g Y g' H; cbn [apply_policies] in *.
    - injection H as <- <-. exists X'. auto.
    - destruct (index_of factors (po_factor po)) as [j|e]; [cbn [rbind] in *|discriminate].
      destruct (get_shock rnd g (po_effect_size po) (po_standard_deviation po) N) as [[s g1]|e]; [|discriminate].
      cbn [rbind fst snd] in *.
      destruct (IH _ (fun i f => if f =? j then X' i f + s i else X' i f)%R _ _ _ H) as (Y' & -> & Hd).
      exists Y'. split; [reflexivity|]. intros i f. rewrite Hd. destruct (f =? j); ring.
  Qed.

  Section States.
    Variables (d : dims) (factors : list string) (N : nat) (ps : parsed R).
    Variable observed : nat -> nat -> nat -> option R.
    Notation run := (simulate_states nan tfunc rnd d factors N ps observed).

    Lemma simulate_states_ext pol pol' k : forall t X g,
      (forall s, t <= s < t + k -> policies_of pol s = policies_of pol' s) ->
      run pol k t X g = run pol' k t X g.
    Proof.
      induction k as [|k IH]; intros t X g H; [reflexivity|]. cbn [simulate_states].
      fold (policies_of pol t) (policies_of pol' t). rewrite (H t) by lia.
      destruct (apply_policies rnd factors N (policies_of pol' t) X g) as [[Y g1]|e]; [|reflexivity].
      cbn [rbind]. rewrite IH; [reflexivity|]. intros s Hs. apply H. lia.
    Qed.

    Lemma simulate_states_indep pol k : forall t X X' g l g',
      run pol k t X g = Ok (l, g') -> exists l', run pol k t X' g = Ok (l', g').
    Proof.
      induction k as [|k IH]; intros t X X' g l g' H; cbn [simulate_states] in *.
      - injection H as <- <-. eauto.
      - apply rbind_ok in H as ([Y g1] & HY & H). cbn [fst snd] in H.
        destruct (apply_policies_indep _ _ _ X X' _ _ _ HY) as (Y' & -> & _). cbn [rbind fst snd].
        apply rbind_ok in H as ([r g2] & Hr & H). injection H as <- <-. cbn [fst snd] in *.
        destruct (IH _ _ (fst (next_states nan tfunc rnd d N ps observed t Y' g1)) _ _ _ Hr) as (r' & Hr').
        change (snd (next_states nan tfunc rnd d N ps observed t Y' g1))
          with (snd (next_states nan tfunc rnd d N ps observed t Y g1)).
        rewrite Hr'. cbn [rbind fst snd]. eauto.
    Qed.

    Lemma simulate_states_compare pol pol' t0 :
      (forall s, s <> t0 -> policies_of pol s = policies_of pol' s) ->
      forall k t X g l g' l' g'', t <= t0 < t + k ->
      run pol k t X g = Ok (l, g') -> run pol' k t X g = Ok (l', g'') ->
      (forall s, s < t0 - t -> nth_error l s = nth_error l' s) /\
      exists Y g1 Z gz Z' gz',
        apply_policies rnd factors N (policies_of pol t0) Y g1 = Ok (Z, gz) /\
        apply_policies rnd factors N (policies_of pol' t0) Y g1 = Ok (Z', gz') /\
        nth_error l (t0 - t) = Some Z /\ nth_error l' (t0 - t) = Some Z' /\
        (gz = gz' -> g' = g'').
    Proof.
      intros Hpol. induction k as [|k IH]; intros t X g l g' l' g'' Ht H H'; [lia|].
      cbn [simulate_states] in H, H'. fold (policies_of pol t) in H. fold (policies_of pol' t) in H'.
      apply rbind_ok in H as ([Z gz] & HZ & H). apply rbind_ok in H' as ([Z' gz'] & HZ' & H').
      apply rbind_ok in H as ([r g2] & Hr & H). apply rbind_ok in H' as ([r' g2'] & Hr' & H').
      cbn [fst snd] in *. injection H as <- <-. injection H' as <- <-.
      destruct (Nat.eq_dec t t0) as [->|Hne].
      - rewrite Nat.sub_diag. split; [intros s Hs; lia|]. exists X, g, Z, gz, Z', gz'.
        do 2 (split; [assumption|]). do 2 (split; [reflexivity|]). intros <-.
        destruct (simulate_states_indep _ _ _ _ (fst (next_states nan tfunc rnd d N ps observed t0 Z' gz)) _ _ _ Hr)
          as (r1 & Hr1).
        rewrite <- (simulate_states_ext pol pol' k (S t0)) in Hr' by (intros s Hs; apply Hpol; lia).
        change (snd (next_states nan tfunc rnd d N ps observed t0 Z' gz))
          with (snd (next_states nan tfunc rnd d N ps observed t0 Z gz)) in Hr'.
        rewrite Hr1 in Hr'. now injection Hr'.
      - rewrite <- (Hpol t Hne), HZ in HZ'. injection HZ' as <- <-.
        destruct (IH (S t) _ _ _ _ _ _ ltac:(lia) Hr Hr') as (IH1 & Y & g1 & W & gw & W' & gw' & A & B & C & D & E).
        replace (t0 - t) with (S (t0 - S t)) by lia. split.
        + intros [|s] Hs; [reflexivity|]. cbn [nth_error]. apply IH1. lia.
        + exists Y, g1, W, gw, W', gw'. auto 8.
    Qed.

    (** An invalid policy is only noticed in its period. *)
    Lemma simulate_states_fails pol pol' t0 :
      (forall s, s <> t0 -> policies_of pol s = policies_of pol' s) ->
      (forall Y g1 Z, apply_policies rnd factors N (policies_of pol t0) Y g1 = Ok Z ->
         apply_policies rnd factors N (policies_of pol' t0) Y g1 = Err ValueError) ->
      forall k t X g l, t <= t0 < t + k -> run pol k t X g = Ok l -> run pol' k t X g = Err ValueError.
    Proof.
      intros Hpol Hbad. induction k as [|k IH]; intros t X g l Ht H; [lia|].
      cbn [simulate_states] in *. fold (policies_of pol t) in H. fold (policies_of pol' t).
      apply rbind_ok in H as ([Z gz] & HZ & H).
      destruct (Nat.eq_dec t t0) as [->|Hne].
      - now rewrite (Hbad _ _ _ HZ).
      - rewrite <- (Hpol t Hne), HZ. cbn [rbind fst snd] in *.
        apply rbind_ok in H as (r & Hr & _). now rewrite (IH (S t) _ _ r ltac:(lia) Hr).
    Qed.
  End States.
End Policies.

(** The policies of a period, with one more policy. *)
Lemma policies_of_app a b t : policies_of (a ++ b) t = policies_of a t ++ policies_of b t.
Proof. apply filter_app. Qed.
Lemma policies_of_other before po after s :
  po_period po <> Z.of_nat s -> policies_of (before ++ after) s = policies_of (before ++ po :: after) s.
Proof.
  intros H. rewrite !policies_of_app. unfold policies_of at 4. cbn [filter].
  rewrite (proj2 (Z.eqb_neq _ _) H). reflexivity.
Qed.
Lemma policies_of_same before po after t :
  po_period po = Z.of_nat t ->
  policies_of (before ++ po :: after) t = policies_of before t ++ po :: policies_of after t.
Proof.
  intros H. rewrite policies_of_app. unfold policies_of at 2. cbn [filter].
  rewrite (proj2 (Z.eqb_eq _ _) H). reflexivity.
Qed.

(** * C62 *)

(** A policy whose period is the last one, or none of the model, has no effect at all. *)
Theorem C62_ignored_periods :
  forall nan tfunc (G : Type) (rnd : random G) md n params n_obs data before po after g,
    has_n_periods md n ->
    (po_period po < 0 \/ Z.of_nat n - 1 <= po_period po)%Z ->
    simulate_dataset nan tfunc rnd md params n_obs data (before ++ po :: after) g
    = simulate_dataset nan tfunc rnd md params n_obs data (before ++ after) g.
Proof.
  intros nan tfunc G rnd md n params n_obs data before po after g Hn Hper. unfold simulate_dataset.
  destruct (_ && _); [reflexivity|].
  destruct (process_model md) as [p|e] eqn:Hp; [|reflexivity]. cbn [rbind].
  destruct (_ && _); [reflexivity|]. destruct (_ && _); [reflexivity|].
  destruct (match data with Some _ => _ | None => _ end) as [[[N cs] ob]|e]; [|reflexivity]. cbn [rbind fst snd].
  destruct (reindex_params nan params (params_index_of p)) as [rows|e]; [|reflexivity]. cbn [rbind].
  destruct (parse_for 0%R 1%R ln p (map snd rows) N) as [ps|e]; [|reflexivity]. cbn [rbind].
  assert (E : simulate_from nan tfunc rnd p N ps cs ob (before ++ po :: after) g
              = simulate_from nan tfunc rnd p N ps cs ob (before ++ after) g); [|now rewrite E].
  destruct (p_dims_eq md p Hp) as (_ & _ & _ & _ & Hn' & Hn1).
  pose proof (has_n_periods_fun md _ _ Hn' Hn) as En. unfold simulate_from. rewrite En in *.
  destruct (nth_err (ps_log_weights ps) 0) as [lw|e]; [|reflexivity]. cbn [rbind].
  destruct (dist_args (p_dims p) ps) as [args|e]; [|reflexivity]. cbn [rbind].
  destruct (generate_start_states _ _ _ _ _ _) as [[X g0]|e]; [|reflexivity]. cbn [rbind].
  rewrite (simulate_states_ext nan tfunc rnd _ _ _ _ _ (before ++ po :: after) (before ++ after)); [reflexivity|].
  intros s Hs. symmetry. apply policies_of_other. lia.
Qed.
Print Assumptions C62_ignored_periods.

Section Effect.
  Variable nan : R.
  Variable tfunc : dict (list R) -> vec -> vec.
  Context {G : Type}.
  Variable rnd : random G.

  Lemma two_runs md p n params n_obs data n_ind controls observed rows ps before po after g out out' t0 :
    simulation_setting nan md p n params n_obs data n_ind controls observed rows ps ->
    no_reserved_names md n ->
    po_period po = Z.of_nat t0 -> t0 + 1 < n ->
    simulate_dataset nan tfunc rnd md params n_obs data (before ++ after) g = Ok out ->
    simulate_dataset nan tfunc rnd md params n_obs data (before ++ po :: after) g = Ok out' ->
    let inp := simulation_inputs ps controls observed in
    exists h h' Y g1 gz gz',
      shows_states md n n_ind h (si_unanchored out) /\ measured rnd md n n_ind inp h (si_measurements out) /\
      shows_states md n n_ind h' (si_unanchored out') /\ measured rnd md n n_ind inp h' (si_measurements out') /\
      (forall t, t < t0 -> hi_states h t = hi_states h' t) /\
      apply_policies rnd (latent_of md) n_ind (policies_of before t0 ++ policies_of after t0) Y g1
      = Ok (hi_states h t0, gz) /\
      apply_policies rnd (latent_of md) n_ind (policies_of before t0 ++ po :: policies_of after t0) Y g1
      = Ok (hi_states h' t0, gz') /\
      (gz = gz' -> hi_measurement_generator h 0 = hi_measurement_generator h' 0).
  Proof.
    intros Hset Hres Hpo Ht0 H H' inp.
    pose proof (rows_length nan md p n params n_obs data n_ind controls observed rows ps Hset) as Hlen.
    destruct (simulate_dataset_inv nan tfunc rnd _ _ _ _ _ _ _ _ _ _ _ _ _ _ Hset H) as (Hf & _).
    destruct (simulate_dataset_inv nan tfunc rnd _ _ _ _ _ _ _ _ _ _ _ _ _ _ Hset H') as (Hf' & _).
    destruct Hset as (Hwf & Hg & Hp & Hn & _ & _ & Hps).
    destruct (simulate_from_run nan tfunc rnd md p n Hwf Hg Hp Hn Hres n_ind (map snd rows) ps controls observed
                _ g Hlen Hps _ _ Hf) as (h & lw & args & X & g0 & l & A & B & C & D & E & _ & F1 & F2).
    destruct (simulate_from_run nan tfunc rnd md p n Hwf Hg Hp Hn Hres n_ind (map snd rows) ps controls observed
                _ g Hlen Hps _ _ Hf') as (h' & lw' & args' & X' & g0' & l' & A' & B' & C' & D' & E' & _ & F1' & F2').
    rewrite A in A'. injection A' as <-. rewrite B in B'. injection B' as <-. rewrite C in C'. injection C' as <- <-.
    assert (Hs : forall s, s <> t0 -> policies_of (before ++ after) s = policies_of (before ++ po :: after) s).
    { intros s Hs. apply policies_of_other. rewrite Hpo. lia. }
    destruct (simulate_states_compare nan tfunc rnd _ _ _ _ _ _ _ t0 Hs (n - 1) 0 _ _ _ _ _ _ ltac:(lia) D D')
      as (Hbefore & Y & g1 & Z & gz & Z' & gz' & HZ & HZ' & HnZ & HnZ' & Hgen).
    rewrite Nat.sub_0_r in *. rewrite (E t0 ltac:(lia)) in HnZ. rewrite (E' t0 ltac:(lia)) in HnZ'.
    injection HnZ as <-. injection HnZ' as <-.
    rewrite policies_of_app in HZ. rewrite (policies_of_same _ _ _ _ Hpo) in HZ'.
    exists h, h', Y, g1, gz, gz'. repeat (split; [assumption|]). split; [|auto].
    intros t Ht. specialize (Hbefore t Ht). rewrite (E t ltac:(lia)), (E' t ltac:(lia)) in Hbefore. now injection Hbefore.
  Qed.

  Lemma added_policy factors N before po after Y g1 Z gz Z' gz' :
    apply_policies rnd factors N (before ++ after) Y g1 = Ok (Z, gz) ->
    apply_policies rnd factors N (before ++ po :: after) Y g1 = Ok (Z', gz') ->
    po_standard_deviation po = 0%R \/ after = [] ->
    exists j shock ga gb,
      nth_error factors j = Some (po_factor po) /\ shock_drawn rnd N po ga shock gb /\
      (po_standard_deviation po = 0%R -> gz = gz') /\
      forall i f, Z' i f = (if f =? j then Z i f + shock i else Z i f)%R.
  Proof.
    rewrite !apply_policies_app. intros H H' Hsd.
    apply rbind_ok in H as ([W ga] & HW & H). rewrite HW in H'. cbn [rbind fst snd] in *.
    change (po :: after) with ([po] ++ after) in H'. rewrite apply_policies_app in H'.
    cbn [apply_policies] in H'. destruct (index_of factors (po_factor po)) as [j|e] eqn:Ej; [|discriminate].
    cbn [rbind] in H'. destruct (get_shock rnd ga _ _ N) as [[s gb]|e] eqn:Es; [|discriminate].
    cbn [rbind fst snd] in H'.
    exists j, s, ga, gb. split; [now apply index_of_spec|]. apply get_shock_spec in Es. split; [exact Es|].
    destruct Es as [(E0 & Hs & Eg)|(Hpos & Es)].
    - subst gb. destruct (apply_policies_indep rnd _ _ _ _ (fun i f => if f =? j then W i f + s i else W i f)%R _ _ _ H)
        as (Z1 & HZ1 & Hd).
      rewrite HZ1 in H'. injection H' as <- <-. split; [reflexivity|]. intros i f. specialize (Hd i f).
      destruct (f =? j); lra.
    - split; [intros E0; lra|]. destruct Hsd as [E0|E0]; [lra|subst after]. cbn [apply_policies] in *.
      injection H as <- <-. injection H' as <- <-. reflexivity.
  Qed.
End Effect.

Lemma shows_fun n tb i t c x y : shows n tb i t c x -> shows n tb i t c y -> x = y.
Proof. intros (r & A & <-) (r' & A' & <-). rewrite A in A'. injection A' as <-. reflexivity. Qed.

(** A policy does not change the states of earlier periods. In its period it changes
    only the requested factor, by a shock that is equal to the effect size if there is no
    standard deviation and otherwise drawn from a normal distribution. Policies that are
    listed later draw different random numbers then, so this requires that there are
    none in the period. *)
Theorem C62_effect_on_states :
  forall nan tfunc (G : Type) (rnd : random G) md p n params n_obs data n_ind controls observed rows ps
         before po after g out out' t0,
    simulation_setting nan md p n params n_obs data n_ind controls observed rows ps ->
    no_reserved_names md n ->
    po_period po = Z.of_nat t0 -> t0 + 1 < n ->
    simulate_dataset nan tfunc rnd md params n_obs data (before ++ after) g = Ok out ->
    simulate_dataset nan tfunc rnd md params n_obs data (before ++ po :: after) g = Ok out' ->
    (forall i t f c, i < n_ind -> t < t0 -> In f (latent_of md) ->
       shows n (si_unanchored out) i t f c -> shows n (si_unanchored out') i t f c) /\
    (po_standard_deviation po = 0%R \/ (forall po', In po' after -> po_period po' <> po_period po) ->
     exists g1 shock g2,
       shock_drawn rnd n_ind po g1 shock g2 /\
       forall i f c, i < n_ind -> In f (latent_of md) -> shows n (si_unanchored out) i t0 f c ->
         (f <> po_factor po -> shows n (si_unanchored out') i t0 f c) /\
         (f = po_factor po -> exists x, c = CNum x /\ shows n (si_unanchored out') i t0 f (CNum (x + shock i)%R))).
Proof.
  intros nan tfunc G rnd md p n params n_obs data n_ind controls observed rows ps
    before po after g out out' t0 Hset Hres Hpo Ht0 H H'.
  destruct (two_runs nan tfunc rnd md p n params n_obs data n_ind controls observed rows ps before po after g out out'
              t0 Hset Hres Hpo Ht0 H H')
    as (h & h' & Y & g1 & gz & gz' & (_ & _ & S1) & _ & (_ & _ & S1') & _ & Hbefore & HZ & HZ' & _).
  assert (Hwf : wf_dicts md) by apply Hset. split.
  - intros i t f c Hi Ht Hf Hc. apply In_nth_error in Hf as [j Hj].
    rewrite (shows_fun _ _ _ _ _ _ _ Hc (S1 i t j f Hi ltac:(lia) Hj)), (Hbefore t Ht).
    apply S1'; auto; lia.
  - intros Hsd.
    destruct (added_policy rnd _ _ _ _ _ _ _ _ _ _ _ HZ HZ') as (j0 & shock & ga & gb & Hj0 & Hshock & _ & Hd).
    { destruct Hsd as [|Hsd]; [auto|right]. unfold policies_of.
      assert (Hnone : forall l, (forall po', In po' l -> po_period po' <> po_period po) ->
                filter (fun po => Z.eqb (po_period po) (Z.of_nat t0)) l = []).
      { induction l as [|q l IH]; intros Hl; [reflexivity|]. cbn [filter].
        rewrite (proj2 (Z.eqb_neq _ _)); [apply IH; intros; apply Hl; simpl; auto|].
        rewrite <- Hpo. apply Hl. simpl. auto. }
      now apply Hnone. }
    exists ga, shock, gb. split; [exact Hshock|]. intros i f c Hi Hf Hc. apply In_nth_error in Hf as [j Hj].
    pose proof (shows_fun _ _ _ _ _ _ _ Hc (S1 i t0 j f Hi ltac:(lia) Hj)) as ->.
    pose proof (S1' i t0 j f Hi ltac:(lia) Hj) as Hc'. rewrite Hd in Hc'.
    destruct (Nat.eqb_spec j j0) as [->|Hne].
    + assert (f = po_factor po) as -> by congruence. split; [congruence|]. eauto.
    + split; [auto|]. intros ->. exfalso. apply Hne.
      apply (proj1 (NoDup_nth_error (latent_of md)) (proj1 Hwf)); [apply nth_error_Some; congruence|congruence].
Qed.
Print Assumptions C62_effect_on_states.

(** Without standard deviation, a policy does not change the measurements of earlier
    periods either. In its period, it shifts them by effect size times loading. (So the
    policy does not work at the end of the period, contrary to the documentation.) *)
Theorem C62_effect_on_measurements :
  forall nan tfunc (G : Type) (rnd : random G) md p n params n_obs data n_ind controls observed rows ps
         before po after g out out' t0,
    simulation_setting nan md p n params n_obs data n_ind controls observed rows ps ->
    no_reserved_names md n ->
    po_period po = Z.of_nat t0 -> t0 + 1 < n -> po_standard_deviation po = 0%R ->
    simulate_dataset nan tfunc rnd md params n_obs data (before ++ after) g = Ok out ->
    simulate_dataset nan tfunc rnd md params n_obs data (before ++ po :: after) g = Ok out' ->
    forall i t k v c, i < n_ind -> nth_error (equations md n) k = Some (t, v) ->
      shows n (si_measurements out) i t v c ->
      (t < t0 -> shows n (si_measurements out') i t v c) /\
      (t = t0 ->
       (c = CNan /\ shows n (si_measurements out') i t v CNan) \/
       exists x j, c = CNum x /\ nth_error (latent_of md) j = Some (po_factor po) /\
         shows n (si_measurements out') i t v
           (CNum (x + in_loadings (simulation_inputs ps controls observed) k j * po_effect_size po)%R)).
Proof.
  intros nan tfunc G rnd md p n params n_obs data n_ind controls observed rows ps
    before po after g out out' t0 Hset Hres Hpo Ht0 Hsd H H' i t k v c Hi Hk Hc.
  destruct (two_runs nan tfunc rnd md p n params n_obs data n_ind controls observed rows ps before po after g out out'
              t0 Hset Hres Hpo Ht0 H H')
    as (h & h' & Y & g1 & gz & gz' & _ & (_ & _ & M) & _ & (_ & _ & M') & Hbefore & HZ & HZ' & Hgen).
  destruct (added_policy rnd _ _ _ _ _ _ _ _ _ _ _ HZ HZ' (or_introl Hsd))
    as (j0 & shock & ga & gb & Hj0 & Hshock & Hg0 & Hd).
  specialize (Hgen (Hg0 Hsd)). set (inp := simulation_inputs ps controls observed) in *.
  assert (Hgens : forall s, s <= n -> hi_measurement_generator h s = hi_measurement_generator h' s).
  { induction s as [|s IH]; intros Hs; [exact Hgen|]. rewrite <- Nat.add_1_r.
    rewrite (proj1 (M s ltac:(lia))), (proj1 (M' s ltac:(lia))), IH by lia. reflexivity. }
  assert (Ht : t < n) by (apply nth_error_In, equations_period in Hk; exact Hk).
  assert (Hpos : exists j, nth_error (period_equations md n t) j = Some k).
  { unfold period_equations. apply In_nth_error. apply in_map_iff. exists (k, (t, v)). split; [reflexivity|].
    apply filter_In. split; [now apply In_enumerate|]. simpl. apply Nat.eqb_refl. }
  destruct Hpos as [j Hj].
  destruct (proj1 (proj2 (M t Ht) i Hi) j k v Hj Hk) as [Mx Mn].
  destruct (proj1 (proj2 (M' t Ht) i Hi) j k v Hj Hk) as [Mx' Mn'].
  rewrite <- (Hgens t ltac:(lia)) in Mx'.
  assert (Hdec : (exists cs, forall c, c < S (length (controls_of md)) -> in_controls inp t i c = Some (cs c)) \/
                 (exists c, c < S (length (controls_of md)) /\ in_controls inp t i c = None)).
  { generalize (S (length (controls_of md))). induction n0 as [|m IH].
    - left. exists (fun _ => 0%R). intros; lia.
    - destruct IH as [(cs & Hcs)|(c0 & Hc0 & Hnone)]; [|right; exists c0; split; [lia|exact Hnone]].
      destruct (in_controls inp t i m) as [x|] eqn:Ex.
      + left. exists (fun c => if c =? m then x else cs c). intros c0 Hc0.
        destruct (Nat.eqb_spec c0 m) as [->|Hne]; [exact Ex|]. apply Hcs. lia.
      + right. exists m. split; [lia|exact Ex]. }
  destruct Hdec as [(cs & Hcs)|Hnone].
  - set (L := in_loadings inp k). set (n_lat := length (latent_of md)).
    set (C := dot (S (length (controls_of md))) cs (in_control_params inp k)).
    specialize (Mx (dot n_lat (hi_states h t i) L + C)%R ltac:(now exists cs)).
    specialize (Mx' (dot n_lat (hi_states h' t i) L + C)%R ltac:(now exists cs)).
    rewrite (shows_fun _ _ _ _ _ _ _ Hc Mx). split.
    + intros Hlt. rewrite (Hbefore t Hlt). exact Mx'.
    + intros ->. right. eexists. exists j0. split; [reflexivity|]. split; [exact Hj0|].
      assert (Hs : forall i, shock i = po_effect_size po).
      { destruct Hshock as [(_ & Hs & _)|(Hpos & _)]; [exact Hs|lra]. }
      assert (E : dot n_lat (hi_states h' t0 i) L = (dot n_lat (hi_states h t0 i) L + L j0 * po_effect_size po)%R).
      { unfold dot.
        rewrite (rsum_ext n_lat (fun a => hi_states h' t0 i a * L a)%R
                   (fun a => hi_states h t0 i a * L a + (if a =? j0 then L j0 * po_effect_size po else 0))%R).
        - rewrite rsum_plus. f_equal. rewrite (rsum_single n_lat j0).
          + now rewrite Nat.eqb_refl.
          + apply nth_error_Some. congruence.
          + intros a _ Ha. now rewrite (proj2 (Nat.eqb_neq _ _) Ha).
        - intros a _. rewrite Hd, Hs. destruct (Nat.eqb_spec a j0) as [->|_]; ring. }
      rewrite E in Mx'. match goal with |- shows _ _ _ _ _ (CNum ?y) => match type of Mx' with shows _ _ _ _ _ (CNum ?x) =>
        replace y with x by (unfold L; ring) end end. exact Mx'.
  - specialize (Mn Hnone). specialize (Mn' Hnone). rewrite (shows_fun _ _ _ _ _ _ _ Hc Mn).
    split; [|auto]. intros _. exact Mn'.
Qed.
Print Assumptions C62_effect_on_measurements.

(** A policy with a negative standard deviation, or for a factor that is not latent, is
    rejected if its period has a transition. *)
Theorem C62_invalid_policies :
  forall nan tfunc (G : Type) (rnd : random G) md p n params n_obs data n_ind controls observed rows ps
         before po after g out t0,
    simulation_setting nan md p n params n_obs data n_ind controls observed rows ps ->
    po_period po = Z.of_nat t0 -> t0 + 1 < n ->
    (po_standard_deviation po < 0)%R \/ ~ In (po_factor po) (latent_of md) ->
    simulate_dataset nan tfunc rnd md params n_obs data (before ++ after) g = Ok out ->
    simulate_dataset nan tfunc rnd md params n_obs data (before ++ po :: after) g = Err ValueError.
Proof.
  intros nan tfunc G rnd md p n params n_obs data n_ind controls observed rows ps
    before po after g out t0 Hset Hpo Ht0 Hbad H.
  destruct (simulate_dataset_inv nan tfunc rnd _ _ _ _ _ _ _ _ _ _ _ _ _ _ Hset H) as (Hf & _).
  rewrite (simulate_dataset_eq nan tfunc rnd _ _ _ _ _ _ _ _ _ _ _ _ _ Hset) in *.
  destruct (_ && _); [reflexivity|]. clear H.
  enough (E : simulate_from nan tfunc rnd p n_ind ps controls observed (before ++ po :: after) g = Err ValueError)
    by (unfold finish; now rewrite E).
  destruct Hset as (_ & _ & Hp & Hn & _).
  destruct (p_dims_eq md p Hp) as (_ & _ & _ & _ & Hn' & Hn1).
  pose proof (has_n_periods_fun md _ _ Hn' Hn) as En. unfold simulate_from in *. rewrite En in *.
  rewrite (l_latent_eq md p Hp) in *.
  destruct (nth_err (ps_log_weights ps) 0) as [lw|e]; [|discriminate]. cbn [rbind] in *.
  destruct (dist_args (p_dims p) ps) as [args|e]; [|discriminate]. cbn [rbind] in *.
  destruct (generate_start_states _ _ _ _ _ _) as [[X g0]|e]; [|discriminate]. cbn [rbind fst snd] in *.
  apply rbind_ok in Hf as (l & Hl & _).
  rewrite (simulate_states_fails nan tfunc rnd _ _ _ _ _ (before ++ after) (before ++ po :: after) t0) with (l := l);
    [reflexivity| | |lia|exact Hl].
  - intros s Hs. apply policies_of_other. rewrite Hpo. lia.
  - intros Y g1 Z HZ. rewrite policies_of_app, apply_policies_app in HZ.
    rewrite (policies_of_same _ _ _ _ Hpo), apply_policies_app.
    apply rbind_ok in HZ as ([W gw] & HW & _). rewrite HW. cbn [rbind fst snd apply_policies].
    assert (Hidx : forall l x e, index_of l x = Err e -> e = ValueError).
    { induction l0 as [|y l0 IH]; cbn [index_of]; intros x e He; [congruence|].
      destruct (String.eqb x y); [discriminate|]. destruct (index_of l0 x) eqn:E; [discriminate|].
      injection He as <-. now apply (IH x). }
    destruct (index_of (latent_of md) (po_factor po)) as [j|e] eqn:E.
    + cbn [rbind]. destruct Hbad as [Hsd|Hnot].
      * unfold get_shock. destruct (Req_EM_T _ _) as [E0|_]; [lra|]. destruct (Rlt_dec _ _); [lra|reflexivity].
      * exfalso. apply Hnot. apply index_of_spec in E. now apply nth_error_In in E.
    + now rewrite (Hidx _ _ _ E).
Qed.
Print Assumptions C62_invalid_policies.
