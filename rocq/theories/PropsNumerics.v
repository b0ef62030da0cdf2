(** The likelihood does not depend on the signs chosen by the QR decomposition (C91). *)
Require Import Reals Qreals Lra Lia Psatz Arith ZArith Bool String List.
From Verif Require Import PyBase ListFacts ModelSpec ProcessModel CheckModel SpecModel ProcessModelFacts
  SpecParse SpecIndex IndexFacts ParamsIndex ParseParams ExampleModels ParseFacts PropsSpec PropsParse ProcessData SpecData PropsData
  RSum Kalman SpecKalman KalmanFacts PredictFacts QRWitness Clipping Likelihood SpecLikelihood ScheduleFacts LikelihoodFacts
  LikelihoodRun PropsKalman LikelihoodLocal PropsLikelihood PropsFiltered TransitionFunctions SpecTransition TransitionFacts PropsTransition
  SpecStateSpace SpecModelDensity ModelDensityFacts QRSigns.
Import ListNotations.
Open Scope R_scope.

(** ** Runs *)

Section Runs.
  Variables qr qr' : qr_function.
  Hypothesis Hqr : correct_qr qr.
  Hypothesis Hqr' : correct_qr qr'.
  Variable nan : R.
  Variable tfunc : dict (list R) -> vec -> vec.
  Variables (n_obs nm n no nc : nat) (kappa : R) (inp : inputs) (i : nat).
  Hypothesis Hnm : (1 <= nm)%nat.
  Hypothesis Hkappa : 0 <= kappa.
  Hypothesis Hpos : 0 < INR n + kappa.
  Hypothesis Hshape : no = O \/ nm = 1%nat.
  Hypothesis Htf : forall c, local_transition n (n + no) (tfunc c).

  Definition regular_event (e : event) : Prop :=
    match e with
    | Measure k _ => in_sd inp k <> 0
    | Anchor k _ => in_sd inp k <> 0
    | Transition t => forall f, (f < n)%nat ->
        in_shock_sds inp t f <> 0 \/
        (in_scaling inp (t + 0) f <> 0 /\ in_scaling inp (t + 1) f <> 0 /\ forall v, tfunc (in_coeffs inp t) v f = v f)
    end.

  Definition signed_beliefs (b b' : belief) : Prop :=
    signed nm n i (be_states b) (be_states b') (be_chols b) (be_chols b') /\
    forall m, (m < nm)%nat -> be_logw b i m = be_logw b' i m.

  Lemma update_signs a k t b b' : in_sd inp k <> 0 -> signed_beliefs b b' ->
    signed_beliefs (fst (update_event qr nan nm n nc inp a k t b)) (fst (update_event qr' nan nm n nc inp a k t b')) /\
    same_record nm n i i (snd (update_event qr nan nm n nc inp a k t b)) (snd (update_event qr' nan nm n nc inp a k t b')).
  Proof.
    intros Hsd [Hs Hw]. unfold update_event. cbn [fst snd].
    pose proof (update_signed qr qr' Hqr Hqr' nan nm n nc i _ _ _ _ (in_loadings inp k) (in_control_params inp k)
      (in_sd inp k) (in_values inp k) (in_controls inp t) (be_logw b) (be_logw b') Hsd Hs) as U.
    pose proof (update_loglikes qr qr' Hqr Hqr' nan nm n nc i _ _ _ _ (in_loadings inp k) (in_control_params inp k)
      (in_sd inp k) (in_values inp k) (in_controls inp t) (be_logw b) (be_logw b') Hnm Hs Hw) as L.
    pose proof (update_rest qr qr' Hqr Hqr' nan nm n nc i _ _ _ _ (in_loadings inp k) (in_control_params inp k)
      (in_sd inp k) (in_values inp k) (in_controls inp t) (be_logw b) (be_logw b') Hnm Hs Hw) as Rs.
    unfold signed_beliefs, same_record.
    cbn [be_states be_chols be_logw re_contribution re_states re_logw re_residuals re_residual_sds].
    split; [split|split; [exact L|]].
    - destruct a; assumption.
    - intros m Hm. now apply Rs.
    - intros m Hm. destruct (Rs m Hm) as (R1 & R2 & R3). split; [|auto].
      destruct a; [now apply Hs|now apply U].
  Qed.

  Lemma run_signs evs : forall b b' recs recs', Forall regular_event evs -> signed_beliefs b b' ->
    run qr nan tfunc n_obs nm n no nc kappa inp evs b = Ok recs ->
    run qr' nan tfunc n_obs nm n no nc kappa inp evs b' = Ok recs' ->
    Forall2 (same_record nm n i i) recs recs'.
  Proof.
    induction evs as [|e evs IH]; intros b b' recs recs' HF Hb E E'.
    - injection E as <-. injection E' as <-. constructor.
    - inversion HF as [|? ? He HF']; subst. destruct e as [k t|k t|t]; cbn [run] in E, E';
        apply rbind_ok in E as (x & Ex & E); apply rbind_ok in E' as (x' & Ex' & E').
      + injection E as <-. injection E' as <-.
        destruct (update_signs false k t b b' He Hb) as [A B]. constructor; [exact B|]. eauto.
      + injection E as <-. injection E' as <-.
        destruct (update_signs true k t b b' He Hb) as [A B]. constructor; [exact B|]. eauto.
      + eapply IH; [exact HF'| |exact E|exact E']. destruct Hb as [Hs Hw]. unfold transition_event in Ex, Ex'.
        apply rbind_ok in Ex as (y & Ey & [= <-]). apply rbind_ok in Ex' as (y' & Ey' & [= <-]).
        split; [|exact Hw]. cbn [be_states be_chols].
        exact (predict_signed qr qr' Hqr Hqr' n_obs nm n no i kappa Hkappa Hpos Hshape _ _ _ _ Hs _ _ _ _ _
                 (Htf _) He _ _ Ey Ey').
  Qed.
End Runs.

(** ** Which events occur *)

Lemma code_events_in l : forall k e, In e (code_events k l) ->
  match e with
  | Measure j _ | Anchor j _ => (k <= j < k + length l)%nat
  | Transition t => exists tb, In tb l /\ fst tb = S t
  end.
Proof.
  induction l as [|tb l IH]; intros k e H; [destruct H|]. cbn [code_events] in H. destruct H as [<-|H].
  { unfold ev. destruct (snd tb); cbn [length]; lia. }
  apply in_app_or in H as [H|H].
  - destruct l as [|tb' l]; [destruct H|]. destruct (Nat.eqb_spec (fst tb') (S (fst tb))) as [E|]; [|destruct H].
    destruct H as [<-|[]]. exists tb'. split; [right; now left|exact E].
  - apply IH in H. destruct e; cbn [length]; try lia. destruct H as (x & Hx & E). exists x. split; [now right|exact E].
Qed.

(** * C91 *)

(** No zero standard deviation of a measurement, no zero on the diagonal of the initial
    Cholesky factors, and a shock for every factor that is not constant; for constant
    factors no zero anchoring factor ([scale], by period and position of the factor). *)
Definition nondegenerate (md : model_dict) (n : nat) (idx : list label) (val : label -> R) (scale : nat -> vec) : Prop :=
  (forall t v, In (CMeasSds, t, v, "-"%string) idx -> val (CMeasSds, t, v, "-"%string) <> 0) /\
  (forall e f, In (CInitChol, O, mixture_name e, cov_name f f) idx ->
     val (CInitChol, O, mixture_name e, cov_name f f) <> 0) /\
  (forall t j f fs, (t + 1 < n)%nat -> nth_error (latent_of md) j = Some f -> In (f, fs) (md_factors md) ->
     val (CShockSds, t, f, "-"%string) <> 0 \/
     (fs_transition fs = TStr "constant" /\ scale t j <> 0 /\ scale (t + 1)%nat j <> 0)).

(** Everything that is returned for the individuals of the sample. *)
Definition same_output (n_obs n_updates nm n_factors : nat) (out out' : output) : Prop :=
  out_value out = out_value out' /\
  (forall i, (i < n_obs)%nat -> out_contributions out i = out_contributions out' i) /\
  match out_debug out, out_debug out' with
  | None, None => True
  | Some d, Some d' =>
      forall i k, (i < n_obs)%nat -> (k < n_updates)%nat ->
        do_all_contributions d k i = do_all_contributions d' k i /\
        forall m, (m < nm)%nat ->
          veq n_factors (do_initial_states d i m) (do_initial_states d' i m) /\
          do_initial_logw d i m = do_initial_logw d' i m /\
          veq n_factors (do_filtered_states d k i m) (do_filtered_states d' k i m) /\
          do_residuals d k i m = do_residuals d' k i m /\
          do_residual_sds d k i m = do_residual_sds d' k i m /\
          do_logw d k i m = do_logw d' k i m
  | _, _ => False
  end.

Section Model.
  Variables qr qr' : qr_function.
  Hypothesis Hqr : correct_qr qr.
  Hypothesis Hqr' : correct_qr qr'.
  Variables (nan neg_inf : R) (custom : string -> dict R -> dict R -> list R -> result R).
  Hypothesis Hcustom : total_custom custom.
  Variables (md : model_dict) (p : processed) (n : nat) (df : frame R) (ids lv : list Z) (ar : arrays R)
    (params : list R) (ps : parsed R) (val : label -> R) (debug : bool).
  Hypothesis H : likelihood_setting md p n df ids lv ar params ps.
  Hypothesis Hval : parameter_values (params_index_of p) params val.
  Hypothesis Hnd : nondegenerate md n (params_index_of p) val (arr2 (ps_scaling ps)).
  Hypothesis Hkappa : 0 <= Q2R (o_sigma_points_scale (p_options p)).

  Let Hwf : wf_dicts md. Proof. apply H. Qed.
  Let Hp : process_model md = Ok p. Proof. apply H. Qed.
  Let Hn : has_n_periods md n. Proof. apply H. Qed.
  Let Hg : good_names md. Proof. apply H. Qed.
  Let tfunc := model_tfunc nan neg_inf custom md (p_labels p).

  Lemma constant_factor t j f fs : (t + 1 < n)%nat -> nth_error (latent_of md) j = Some f ->
    In (f, fs) (md_factors md) -> fs_transition fs = TStr "constant" ->
    forall v, tfunc (in_coeffs (inputs_of ps ar) t) v j = v j.
  Proof.
    intros Ht Hj Hin Hc v.
    assert (Hnda : NoDup (latent_of md ++ observed_of md)) by apply Hg.
    set (state := fun g => match position g (latent_of md ++ observed_of md) with Some k => v k | None => 0 end).
    assert (Hpos : forall l k g, NoDup l -> nth_error l k = Some g -> position g l = Some k).
    { clear. induction l as [|a l IH]; intros [|k] g ND Hk; try discriminate; cbn [position nth_error] in *.
      - injection Hk as ->. now rewrite String.eqb_refl.
      - inversion ND as [|? ? Na ND']; subst. destruct (String.eqb_spec g a) as [->|_].
        + exfalso. apply Na. eapply nth_error_In, Hk.
        + now rewrite (IH k g ND' Hk). }
    assert (Hstate : forall k g, nth_error (latent_of md ++ observed_of md) k = Some g -> state g = v k).
    { intros k g Hk. unfold state. now rewrite (Hpos _ k g Hnda Hk). }
    assert (Hlen : length params = length (params_index_of p)) by apply H.
    assert (Hps : parse_for 0 1 ln p params (length ids) = Ok ps) by apply H.
    destruct (C57_model_transition nan neg_inf custom Hcustom md p n (length ids) params ps ar Hwf Hg Hp Hn Hlen Hps
                t j f fs v (fun name => val (CTransition, t, f, name)) state Ht Hj Hin) as [A _].
    - intros name Hname. apply (proj1 Hval). apply (In_params_index md p _ Hwf Hp).
      now apply (par_transition md t n f fs).
    - exact Hstate.
    - unfold tfunc. rewrite (A "constant"%string (state f) Hc (doc_constant _ _ _ _)).
      apply Hstate. rewrite nth_error_app1; [exact Hj|]. apply nth_error_Some. congruence.
  Qed.
  Lemma initial_entry i m r c : (i < length ids)%nat -> (m < n_mixtures_of md)%nat ->
    (r < length (latent_of md))%nat -> (c < length (latent_of md))%nat ->
    be_chols (initial_belief ps) i m r c
    = if (r <=? c)%nat then val (CInitChol, O, mixture_name m, cov_name (factor md c) (factor md r)) else 0.
  Proof.
    intros Hi Hm Hr Hc.
    assert (Hlen : length params = length (params_index_of p)) by apply H.
    assert (Hps : parse_for 0 1 ln p params (length ids) = Ok ps) by apply H.
    destruct (C10_initial_distribution R 0 1 ln md p n (length ids) params ps Hwf (idx_NoDup md p Hwf Hg Hp) Hp Hn Hlen Hps)
      as (_ & _ & _ & Hinit).
    destruct (Hinit i Hi) as (st & ch & we & Hst & Hch & Hwe & _ & _ & _ & He').
    destruct (He' m Hm) as (_ & _ & (chol & Hc' & _ & Hchol)).
    unfold initial_belief. cbn [be_chols]. unfold arr4, arr3, arr2, arr1.
    rewrite (nth_of_nth_error _ _ _ _ Hch), (nth_of_nth_error _ _ _ _ Hc').
    destruct (Hchol r c _ _ (factor_nth md r Hr) (factor_nth md c Hc)) as (x & (row & Hrow & Hx) & A & B).
    rewrite (nth_of_nth_error _ _ _ _ Hrow), (nth_of_nth_error _ _ _ _ Hx).
    destruct (Nat.leb_spec r c) as [L|G]; [exact (val_eq md p n df ids lv ar params ps val H Hval _ _ (A L))|exact (B G)].
  Qed.

  Lemma initial_nonsingular i m : (i < length ids)%nat -> (m < n_mixtures_of md)%nat ->
    nonsingular (length (latent_of md)) (be_chols (initial_belief ps) i m).
  Proof.
    intros Hi Hm. apply diagonal_nonsingular.
    - intros a b Ha Hb Hlt. rewrite initial_entry by assumption. now rewrite (proj2 (Nat.leb_gt a b)) by exact Hlt.
    - intros a Ha. rewrite initial_entry, Nat.leb_refl by assumption. apply Hnd.
      apply (In_params_index md p _ Hwf Hp).
      apply (par_initial_chol md m a a); [assumption|now apply factor_nth|now apply factor_nth|lia].
  Qed.

  Lemma all_regular :
    Forall (regular_event tfunc (length (latent_of md)) (inputs_of ps ar)) (code_events 0 (purposes (p_update p))).
  Proof.
    assert (Hm : forall k, (k < length (purposes (p_update p)))%nat -> in_sd (inputs_of ps ar) k <> 0).
    { intros k Hk. assert (Hk' : (k < length (equations md n))%nat).
      { rewrite (equations_update md p n Hwf Hp Hn), map_length. unfold purposes in Hk. now rewrite map_length in Hk. }
      destruct (nth_error (equations md n) k) as [[t v]|] eqn:Ek; [|apply nth_error_None in Ek; lia].
      rewrite (input_sd md p n df ids lv ar params ps val H Hval k t v Ek). apply Hnd.
      destruct (C09_measurement_parameters R 0 1 ln md p n (length ids) params ps Hwf (idx_NoDup md p Hwf Hg Hp) Hp Hn ltac:(apply H) ltac:(apply H))
        as (_ & _ & _ & _ & Heq & _).
      destruct (proj2 (proj2 (Heq k t v Ek))) as (x & _ & (j' & Hj' & _)). eapply nth_error_In, Hj'. }
    apply Forall_forall. intros e He. apply code_events_in in He. destruct e as [k t|k t|t]; cbn [regular_event].
    - apply Hm. lia.
    - apply Hm. lia.
    - destruct He as (tb & Hin & E). unfold purposes in Hin. apply in_map_iff in Hin as (r & <- & Hr). cbn [fst] in E.
      pose proof (update_periods md p n df ids lv ar params ps H r Hr) as Hlt.
      assert (Ht : (t + 1 < n)%nat) by lia.
      intros j Hj. pose proof (factor_nth md j Hj) as Hf.
      assert (exists fs, In (factor md j, fs) (md_factors md)) as [fs Hin].
      { apply nth_error_In in Hf. unfold latent_of in Hf. apply in_map_iff in Hf as ([f' fs] & E' & Hin').
        exists fs. cbn [fst] in E'. now rewrite <- E'. }
      rewrite (input_shock md p n df ids lv ar params ps val H Hval t j Ht Hj). rewrite Nat.add_0_r.
      destruct (proj2 (proj2 Hnd) t j _ fs Ht Hf Hin) as [A|(A & B & C)]; [now left|right].
      split; [exact B|]. split; [exact C|]. exact (constant_factor t j _ fs Ht Hf Hin A).
  Qed.
End Model.

Lemma same_outputs o n_obs n_updates nm n b debug out out' recs recs' :
  reports o n_obs recs b debug out -> reports o n_obs recs' b debug out' ->
  length recs = n_updates ->
  (forall i, (i < n_obs)%nat -> Forall2 (same_record nm n i i) recs recs') ->
  same_output n_obs n_updates nm n out out'.
Proof.
  intros (V & C & N & D) (V' & C' & N' & D') Hl F.
  assert (E : forall i, (i < n_obs)%nat -> contribution_of o recs i = contribution_of o recs' i).
  { intros i Hi. specialize (F i Hi). unfold contribution_of. clear -F. induction F as [|r r' l l' [Hr _] _ IH]; [reflexivity|].
    cbn [map sum_list fold_right] in *. rewrite Hr. f_equal. exact IH. }
  split; [|split].
  - rewrite V, V'. now apply rsum_ext.
  - intros i Hi. rewrite C, C'. now apply E.
  - destruct debug.
    + destruct (D eq_refl) as (d & -> & I1 & I2 & K). destruct (D' eq_refl) as (d' & -> & I1' & I2' & K').
      intros i k Hi Hk. specialize (F i Hi).
      destruct (nth_error recs k) as [r|] eqn:Ek; [|apply nth_error_None in Ek; lia].
      assert (exists r', nth_error recs' k = Some r' /\ same_record nm n i i r r') as (r' & Ek' & A & B).
      { clear -F Ek. revert k Ek. induction F as [|a a' l l' Ha _ IH]; intros [|k] Ek; try discriminate.
        - injection Ek as <-. exists a'. auto.
        - now apply IH. }
      destruct (K k r Ek) as (K1 & K2 & K3 & K4 & K5). destruct (K' k r' Ek') as (K1' & K2' & K3' & K4' & K5').
      rewrite K1, K1', K2, K2', K3, K3', K4, K4', K5, K5', I1, I1', I2, I2'.
      split; [exact A|]. intros m Hm. destruct (B m Hm) as (B1 & B2 & B3 & B4).
      split; [intros a _; reflexivity|]. auto.
    + now rewrite (N eq_refl), (N' eq_refl).
Qed.

(** Two correct implementations of the QR decomposition give the same likelihood, the
    same contributions and the same debugging information, for every model: linear or
    not, with anchoring, observed factors and mixtures. *)
Theorem C91_decomposition_irrelevant :
  forall qr qr' nan neg_inf custom md p n df ids lv ar params ps val debug,
    correct_qr qr -> correct_qr qr' -> total_custom custom ->
    likelihood_setting md p n df ids lv ar params ps ->
    parameter_values (params_index_of p) params val ->
    nondegenerate md n (params_index_of p) val (arr2 (ps_scaling ps)) ->
    0 <= Q2R (o_sigma_points_scale (p_options p)) ->
    let tfunc := model_tfunc nan neg_inf custom md (p_labels p) in
    match log_likelihood qr nan tfunc p ar debug params, log_likelihood qr' nan tfunc p ar debug params with
    | Ok out, Ok out' => same_output (length ids) (length (equations md n)) (n_mixtures_of md) (length (latent_of md)) out out'
    | Err e, Err e' => e = e'
    | _, _ => False
    end.
Proof.
  intros qr qr' nan neg_inf custom md p n df ids lv ar params ps val debug Hqr Hqr' Hcustom H Hval Hnd Hkappa tfunc.
  assert (Hwf : wf_dicts md) by apply H. assert (Hp : process_model md = Ok p) by apply H.
  assert (Hn : has_n_periods md n) by apply H.
  assert (Hlu : length (p_update p) = length (equations md n)).
  { rewrite (equations_update md p n Hwf Hp Hn). now rewrite map_length. }
  destruct (shapes_fit (length ids) (n_mixtures (p_dims p)) (n_observed (p_dims p))) eqn:Hfit.
  - destruct (likelihood_events qr nan tfunc md p n df ids lv ar params ps debug H Hfit)
      as (recs & out & Er & Hl & -> & Hr).
    destruct (likelihood_events qr' nan tfunc md p n df ids lv ar params ps debug H Hfit)
      as (recs' & out' & Er' & Hl' & -> & Hr').
    apply (same_outputs _ _ _ _ _ _ _ _ _ _ _ Hr Hr'); [congruence|].
    intros i Hi. unfold run_model in Er, Er'.
    destruct (p_dims_eq md p Hp) as (Dl & Do & Dc & Dm & _).
    assert (Hnm : (1 <= n_mixtures (p_dims p))%nat) by (apply (parse_mixtures p params (length ids) ps); apply H).
    pose proof (model_tfunc_local nan neg_inf custom md p Hp) as Hloc.
    rewrite Dl, Do, Dc, Dm in *.
    refine (run_signs qr qr' Hqr Hqr' nan tfunc (length ids) _ _ _ _ _ (inputs_of ps ar) i Hnm Hkappa _ _ Hloc _ _ _ _ _ _ _ Er Er').
    + assert (0 < INR (length (latent_of md))).
      { apply lt_0_INR. destruct Hn as [(f & fs & Hin & _) _]. unfold latent_of. rewrite map_length.
        destruct (md_factors md); [destruct Hin|cbn; lia]. }
      lra.
    + apply shapes_fit_spec in Hfit as [F|F]; [lia|exact F].
    + exact (all_regular nan neg_inf custom Hcustom md p n df ids lv ar params ps val H Hval Hnd).
    + split; [|intros; reflexivity]. intros m Hm. split; [intros a _; reflexivity|]. split; [|apply signs_refl].
      exact (initial_nonsingular md p n df ids lv ar params ps val H Hval Hnd i m Hi Hm).
  - destruct (p_update p) as [|r u] eqn:Eu.
    + unfold log_likelihood. destruct (ar_shapes md p n df ids lv ar params ps H) as (_ & _ & ->).
      assert (Hps : parse_for 0 1 ln p params (length ids) = Ok ps) by apply H. rewrite Hps. cbn [rbind].
      rewrite (loop_args_ok md p n df ids lv ar params ps H), Eu. cbn [length seq map rbind scan snd].
      split; [reflexivity|]. split; [reflexivity|]. cbn [out_debug]. destruct debug; [|exact I].
      intros i k _ Hk. cbn [length] in Hlu. lia.
    + rewrite (likelihood_misfits qr nan tfunc md p n df ids lv ar params ps debug H Hfit) by (rewrite Eu; discriminate).
      rewrite (likelihood_misfits qr' nan tfunc md p n df ids lv ar params ps debug H Hfit) by (rewrite Eu; discriminate).
      reflexivity.
Qed.
Print Assumptions C91_decomposition_irrelevant.

(** The example model with a constant second factor: translog and constant transition
    functions, both factors anchored; the constant factor has no shocks. *)
Definition kept_model : model_dict :=
  mk_md (match md_factors single_model with
         | [a; (f, mk_factor m _ nrm)] => [a; (f, mk_factor m (TStr "constant") nrm)]
         | l => l
         end)
    (md_observed single_model) (md_controls single_model) (md_stagemap single_model) (md_anchoring single_model)
    (md_options single_model).
Definition kept_p : processed := get_ok (process_model kept_model) small_p.
Lemma kept_model_accepted : process_model kept_model = Ok kept_p.
Proof. vm_compute. reflexivity. Qed.

Definition kept_value (lb : label) : R :=
  match lb with
  | (CShockSds, _, f, _) => if String.eqb f "soc" then 0 else 1
  | _ => 1
  end.
Definition kept_params : list R := map kept_value (params_index_of kept_p).

Lemma kept_setting : data_setting kept_model kept_p 3 ex_df ex_ids ex_lv.
Proof.
  destruct ex_setting as (H1 & _ & H3 & H4 & H5 & H6 & H7).
  split; [exact H1|]. split; [exact kept_model_accepted|]. split.
  - split.
    + eexists _, _. split; [left; reflexivity|reflexivity].
    + intros f fs [[= <- <-]|[[= <- <-]|[]]]; vm_compute; lia.
  - split; [exact H4|]. split; [exact H5|]. split; [exact H6|exact H7].
Qed.

Lemma kept_good_names : good_names kept_model.
Proof.
  destruct small_model_good_names as (G1 & G2 & G3 & G4 & G5 & _). split; [exact G1|].
  split; [exact G2|]. split; [exact G3|]. split; [exact G4|]. split; [exact G5|].
  intros f fs k names [[= <- <-]|[[= <- <-]|[]]] E; discriminate.
Qed.

Lemma kept_clean : clean_anchoring kept_model.
Proof.
  destruct small_model_clean as (C1 & C2 & C3). split; [exact C1|]. split; [exact C2|].
  intros t f o g Ho Hm. apply (C3 t f o g); [exact Ho|]. destruct Hm as (fs & ms & Hin & Hm).
  destruct Hin as [[= <- <-]|[[= <- <-]|[]]].
  - eexists _, ms. split; [left; reflexivity|exact Hm].
  - eexists _, ms. split; [right; left; reflexivity|exact Hm].
Qed.

Lemma kept_in_order : anchored_in_order kept_model.
Proof. vm_compute. reflexivity. Qed.

Lemma kept_anchored : anchored kept_model "soc" "Q2".
Proof. refine (proj2 (anchored_outcomes kept_model _ _) _). vm_compute. tauto. Qed.

Lemma kept_example : exists ar ps,
  likelihood_setting kept_model kept_p 3 (real_frame ex_df) ex_ids ex_lv ar kept_params ps.
Proof.
  destruct (real_process kept_model kept_p 3 ex_df ex_ids ex_lv
              (get_ok (process_data 1%Z Z.eqb ex_df (p_labels kept_p) (p_update kept_p) (p_anch kept_p) true)
                 ex_arrays) kept_setting) as [ar Har].
  { vm_compute. reflexivity. }
  assert (Hl : length kept_params = length (params_index_of kept_p)) by apply map_length.
  destruct (C09_parsing_succeeds R 0 1 ln kept_model kept_p 3 (length ex_ids) kept_params) as [ps Hps].
  - apply kept_setting.
  - apply (idx_NoDup kept_model kept_p); [apply kept_setting|exact kept_good_names|exact kept_model_accepted].
  - exact kept_model_accepted.
  - apply kept_setting.
  - exact Hl.
  - exact kept_clean.
  - lia.
  - apply Nat.leb_le. reflexivity.
  - exists ar, ps. split; [apply real_setting, kept_setting|]. split; [exact kept_good_names|].
    split; [exact Har|]. split; [exact Hl|exact Hps].
Qed.

(** A decomposition with other signs. *)
Definition alternating_gram_schmidt : qr_function :=
  fun m n a i j => (if Nat.even i then -1 else 1) * gram_schmidt m n a i j.
Lemma alternating_correct : correct_qr alternating_gram_schmidt.
Proof.
  intros m n a Hm. destruct (gram_schmidt_correct m n a Hm) as (U & q & Q1 & Q2). split.
  - intros r c Hr Hc Hlt. unfold alternating_gram_schmidt. rewrite (U r c Hr Hc Hlt). ring.
  - exists (fun i j => (if Nat.even j then -1 else 1) * q i j). split.
    + intros j k Hj Hk. rewrite (rsum_ext m _ (fun i => (if Nat.even j then -1 else 1) * (if Nat.even k then -1 else 1) * (q i j * q i k)))
        by (intros; ring).
      rewrite rsum_scal_l, (Q1 j k Hj Hk). destruct (Nat.eq_dec j k) as [->|_]; [|ring]. destruct (Nat.even k); ring.
    + intros i j Hi Hj. rewrite (Q2 i j Hi Hj). apply rsum_ext. intros k _. unfold alternating_gram_schmidt.
      destruct (Nat.even k); ring.
Qed.

Example C91_nonvacuous : exists ar ps val,
  correct_qr gram_schmidt /\ correct_qr alternating_gram_schmidt /\ total_custom (fun _ _ _ _ => Ok 0) /\
  likelihood_setting kept_model kept_p 3 (real_frame ex_df) ex_ids ex_lv ar kept_params ps /\
  parameter_values (params_index_of kept_p) kept_params val /\
  nondegenerate kept_model 3 (params_index_of kept_p) val (arr2 (ps_scaling ps)) /\
  0 <= Q2R (o_sigma_points_scale (p_options kept_p)) /\
  latent_of kept_model = ["cog"; "soc"]%string /\ val (CShockSds, O, "soc"%string, "-"%string) = 0 /\
  map (fun fa => fs_transition (snd fa)) (md_factors kept_model) = [TStr "translog"; TStr "constant"].
Proof.
  destruct kept_example as (ar & ps & H). exists ar, ps, (val_of 0 (params_index_of kept_p) kept_params).
  assert (Hnd : NoDup (params_index_of kept_p)) by (apply (idx_NoDup kept_model kept_p); [apply kept_setting|exact kept_good_names|exact kept_model_accepted]).
  assert (Hl : length kept_params = length (params_index_of kept_p)) by apply map_length.
  assert (V : forall lb, In lb (params_index_of kept_p) -> val_of 0 (params_index_of kept_p) kept_params lb = kept_value lb)
    by (intros lb; apply val_of_values, Hnd).
  split; [exact gram_schmidt_correct|]. split; [exact alternating_correct|]. split; [intros ? ? ? ?; now eexists|].
  split; [exact H|]. split; [|split; [|split; [|split; [reflexivity|split; [|reflexivity]]]]].
  - split.
    + intros lb Hlb. pose proof (labelled_map (params_index_of kept_p) (val_of 0 (params_index_of kept_p) kept_params) lb Hlb) as L.
      rewrite <- (val_of_map 0 (params_index_of kept_p) kept_params Hnd Hl) in L. exact L.
    + intros lb Hlb. clear -Hl Hlb. revert Hl Hlb. generalize kept_params. induction (params_index_of kept_p) as [|a idx IH];
        intros [|x l] Hl Hlb; try reflexivity.
      cbn [val_of]. destruct (label_eq_dec lb a) as [->|_]; [destruct Hlb; now left|].
      apply IH; [now injection Hl|]. intros F. apply Hlb. now right.
  - split; [|split].
    + intros t v Hin. rewrite V by exact Hin. cbn. lra.
    + intros e f Hin. rewrite V by exact Hin. cbn. lra.
    + intros t j f fs Ht Hj Hin.
      assert (Hlab : In (CShockSds, t, f, "-"%string) (params_index_of kept_p)).
      { refine (proj2 (In_params_index kept_model kept_p _ (proj1 kept_setting) kept_model_accepted) _).
        exact (par_shock_sd kept_model t f 3 (proj1 (proj2 (proj2 kept_setting))) Ht (nth_error_In _ _ Hj)). }
      rewrite V by exact Hlab. cbn [kept_value]. destruct Hin as [[= <- <-]|[[= <- <-]|[]]]; [left; cbn; lra|right].
      split; [reflexivity|].
      assert (Hj' : nth_error ["cog"; "soc"]%string j = Some "soc"%string) by exact Hj.
      assert (j = 1%nat) as -> by (clear -Hj'; destruct j as [|[|j]]; [discriminate|reflexivity|destruct j; discriminate]).
      destruct (C12_anchoring_factors_partial R 0 1 ln kept_model kept_p 3 (length ex_ids) kept_params ps
                  (proj1 kept_setting) kept_good_names kept_model_accepted (proj1 (proj2 (proj2 kept_setting))) Hl
                  (proj2 (proj2 (proj2 (proj2 H)))) kept_clean) as (_ & _ & A); [exact kept_in_order|].
      assert (Hs : forall s, (s < 3)%nat -> arr2 (ps_scaling ps) s 1%nat <> 0).
      { intros s Hs. destruct (A s 1%nat "soc"%string Hs eq_refl) as (x & c & (row & Hr & Hx) & _ & L & _).
        unfold arr2, arr1. rewrite (nth_of_nth_error _ _ _ _ Hr), (nth_of_nth_error _ _ _ _ Hx).
        assert (Ha : anchored kept_model "soc" "Q2") by exact kept_anchored.
        specialize (L "Q2"%string Ha).
        assert (Hx1 : x = kept_value (CLoadings, s, ("Q2" ++ "_" ++ "soc")%string, "soc"%string)).
        { assert (Hin' : In (CLoadings, s, ("Q2" ++ "_" ++ "soc")%string, "soc"%string) (params_index_of kept_p))
            by (destruct L as (q & Hq & _); eapply nth_error_In, Hq).
          exact (labelled_fun _ _ _ _ _ Hnd L (labelled_map (params_index_of kept_p) kept_value _ Hin')). }
        rewrite Hx1. cbn. lra. }
      split; apply Hs; lia.
  - replace (o_sigma_points_scale (p_options kept_p)) with 2%Q by (vm_compute; reflexivity). unfold Q2R. cbn. lra.
  - rewrite V; [reflexivity|].
    refine (proj1 (label_mem_In _ (params_index_of kept_p)) _). vm_compute. reflexivity.
Qed.

Print Assumptions C91_decomposition_irrelevant.
