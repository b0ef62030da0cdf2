(** The likelihood of linear models with anchoring (C107): which densities the
    contributions are. *)
From Coquelicot Require Import Coquelicot.
Require Import Reals Qreals String Arith ZArith Bool List Lia Lra Sorted.
From Verif Require Import PyBase ListFacts ModelSpec ProcessModel CheckModel SpecModel ProcessModelFacts
  SpecParse SpecIndex IndexFacts ParamsIndex ParseParams ParamsVec ExampleModels ParseFacts PropsSpec PropsParse ProcessData SpecData PropsData
  RSum Kalman SpecKalman KalmanFacts QRWitness Clipping Likelihood SpecLikelihood ScheduleFacts LikelihoodFacts LikelihoodRun PropsKalman
  PropsLikelihood PropsFiltered TransitionFunctions SpecTransition TransitionFacts PropsTransition SpecGaussian GaussianFacts GaussIntegral
  SpecStateSpace StateSpaceFacts SpecModelDensity ModelDensityFacts BayesFacts PropsBayes AnchoredRun SpecQuadratic SpecAnchored AnchoredFacts
  PropsFactorOrder PropsQuadratic StringFacts PropsControls PropsRenormalization PropsPrefix.
Import ListNotations.
Open Scope R_scope.

(** A linear model with or without anchoring, data and regular parameters; no factor is
    anchored with a loading of zero. *)
Definition anchored_setting (nan neg_inf : R) (custom : string -> dict R -> dict R -> list R -> result R)
    (md : model_dict) (p : processed) (n : nat) (df : frame R)
    (ids lv : list Z) (ar : arrays R) (params : list R) (ps : parsed R) (val : label -> R) : Prop :=
  total_custom custom /\
  likelihood_setting md p n df ids lv ar params ps /\ linear_productions md /\ every_period_measured md n /\
  clean_anchoring md /\ anchored_in_order md /\
  (observed_of md = [] \/ n_mixtures_of md = 1%nat) /\
  0 <= Q2R (o_sigma_points_scale (p_options p)) /\
  parameter_values (params_index_of p) params val /\ regular_parameters md (params_index_of p) val /\
  forall t f, (t < n)%nat -> In f (latent_of md) -> anchoring_scale md val t f <> 0.

Section Anchored.
  Variable qr : qr_function.
  Hypothesis Hqr : correct_qr qr.
  Variables (nan neg_inf : R) (custom : string -> dict R -> dict R -> list R -> result R).
  Variables (md : model_dict) (p : processed) (n : nat) (df : frame R) (ids lv : list Z) (ar : arrays R)
    (params : list R) (ps : parsed R) (val : label -> R).
  Hypothesis HS : anchored_setting nan neg_inf custom md p n df ids lv ar params ps val.

  Let Hcustom : total_custom custom. Proof. apply HS. Qed.
  Let H : likelihood_setting md p n df ids lv ar params ps. Proof. apply HS. Qed.
  Let Hlin : linear_productions md. Proof. apply HS. Qed.
  Let Hev : every_period_measured md n. Proof. apply HS. Qed.
  Let Hclean : clean_anchoring md. Proof. apply HS. Qed.
  Let Hord : anchored_in_order md. Proof. apply HS. Qed.
  Let Hfit : observed_of md = [] \/ n_mixtures_of md = 1%nat. Proof. apply HS. Qed.
  Let Hkappa : 0 <= Q2R (o_sigma_points_scale (p_options p)). Proof. apply HS. Qed.
  Let Hval : parameter_values (params_index_of p) params val. Proof. apply HS. Qed.
  Let Hreg : regular_parameters md (params_index_of p) val. Proof. apply HS. Qed.
  Let Hscale : forall t f, (t < n)%nat -> In f (latent_of md) -> anchoring_scale md val t f <> 0. Proof. apply HS. Qed.
  Let Hwf : wf_dicts md. Proof. apply H. Qed.
  Let Hg : good_names md. Proof. apply H. Qed.
  Let Hp : process_model md = Ok p. Proof. apply H. Qed.
  Let Hn : has_n_periods md n. Proof. apply H. Qed.
  Let Hlen : length params = length (params_index_of p). Proof. apply H. Qed.
  Let Hps : parse_for 0 1 ln p params (length ids) = Ok ps. Proof. apply H. Qed.

  Let kappa := Q2R (o_sigma_points_scale (p_options p)).
  Let nl := length (latent_of md).
  Let no := length (observed_of md).
  Let nm := n_mixtures_of md.
  Let nc := S (length (controls_of md)).
  Let all := latent_of md ++ observed_of md.
  Let inp := inputs_of ps ar.
  Let tfunc := model_tfunc nan neg_inf custom md (p_labels p).
  Let purpose (tv : nat * string) : nat * bool := (fst tv, is_anchoring_equation md (snd tv)).
  Let rows := map purpose (equations md n).

  Lemma a_mixtures_pos : (1 <= nm)%nat.
  Proof.
    destruct Hreg as (_ & _ & _ & _ & Hs). fold nm in Hs. clearbody nm. destruct nm; [|lia].
    cbn [rsum] in Hs. lra.
  Qed.

  Lemma a_factors_pos : 0 < INR nl + kappa.
  Proof.
    assert (0 < INR nl).
    { apply lt_0_INR. destruct Hn as [(f & fs & Hin & _) _]. unfold nl, latent_of. rewrite map_length.
      destruct (md_factors md); [destruct Hin|cbn; lia]. }
    unfold kappa. lra.
  Qed.

  Lemma a_shape_ok : no = O \/ nm = 1%nat.
  Proof. unfold no, nm. destruct Hfit as [-> | ->]; [now left|now right]. Qed.

  Lemma purposes_rows : purposes (p_update p) = rows.
  Proof.
    unfold purposes, rows, purpose. rewrite (equations_update md p n Hwf Hp Hn), !map_map. apply map_ext_in.
    intros r Hr. cbn [u_key fst snd]. f_equal. symmetry. apply (row_anchoring md p n Hwf Hp Hn r Hr).
  Qed.

  Lemma rows_periods : map fst rows = map fst (equations md n).
  Proof. unfold rows. rewrite map_map. apply map_ext. intros [t v]. reflexivity. Qed.

  Lemma rows_chain : exists tb l, rows = tb :: l /\ fst tb = O /\ chain O (map fst l).
  Proof.
    assert (In_p : forall t, In t (map fst rows) <-> (t < n)%nat).
    { intros t. rewrite rows_periods. split.
      - intros Ht. apply in_map_iff in Ht as ([t' v] & <- & Hin). eapply equations_period, Hin.
      - intros Ht. destruct (Hev t Ht) as [v Hv]. apply in_map_iff. exists (t, v). auto. }
    pose proof (equations_sorted md n) as Hs. rewrite <- rows_periods in Hs.
    assert (H1 : (1 <= n)%nat) by (apply (n_ge_1 md p n df ids lv ar params ps H)).
    assert (C : chain O (map fst rows)).
    { apply chain_sorted; [exact Hs|intros; lia|]. intros t _ (s & Hin & Hle). apply In_p in Hin. apply In_p. lia. }
    assert (Z : In O (map fst rows)) by (apply In_p; lia).
    destruct rows as [|tb l]; [destruct Z|]. exists tb, l. cbn [map] in *. destruct C as [_ C].
    assert (E : fst tb = O).
    { destruct Z as [E|Z]; [assumption|]. apply StronglySorted_inv in Hs as [_ Hh]. rewrite Forall_forall in Hh.
      specialize (Hh _ Z). lia. }
    rewrite E in C. auto.
  Qed.

  (** ** The transitions *)

  Lemma a_transition_linear t j row state : (t + 1 < n)%nat -> (j < nl)%nat ->
    (forall k g, nth_error all k = Some g -> state g = row k) ->
    tfunc (in_coeffs inp t) row j = linear_formula all (fun name => val (CTransition, t, factor md j, name)) state.
  Proof.
    intros Ht Hj Hs. pose proof (factor_nth md j Hj) as Hf.
    assert (Hin : In (factor md j) (latent_of md)) by (eapply nth_error_In, Hf).
    unfold latent_of in Hin. apply in_map_iff in Hin as ([f fs] & Ef & Hin). cbn [fst] in Ef.
    rewrite Ef in Hin. clear f Ef. pose proof (Hlin _ _ Hin) as Htr.
    destruct (C57_model_transition nan neg_inf custom Hcustom md p n (length ids) params ps ar Hwf Hg Hp Hn Hlen Hps
      t j (factor md j) fs row (fun name => val (CTransition, t, factor md j, name)) state Ht Hf Hin) as [A _].
    - intros name Hname. apply (proj1 Hval). apply (In_params_index md p _ Hwf Hp). now apply (par_transition md t n _ fs).
    - exact Hs.
    - apply (A "linear"%string); [exact Htr|constructor].
  Qed.

  Lemma a_transition_affine t : (t + 1 < n)%nat -> forall v f, (f < nl)%nat ->
    tfunc (in_coeffs inp t) v f = rsum (nl + no) (fun g => coefficient md val t f g * v g) + intercept md val t f.
  Proof.
    intros Ht v f Hf.
    rewrite (a_transition_linear t f v (fun g => match position g all with Some k => v k | None => 0 end) Ht Hf).
    - unfold linear_formula, linear_part. rewrite (sum_of_rsum ""%string). unfold all at 1. rewrite app_length. f_equal.
      apply rsum_ext. intros g Hgl. unfold coefficient. f_equal.
      fold all. rewrite (position_nth _ _ g); [reflexivity|apply Hg|]. apply nth_error_some_nth. unfold all. rewrite app_length. exact Hgl.
    - intros k g Hk. rewrite (position_nth _ _ k); [reflexivity|apply Hg|exact Hk].
  Qed.

  Lemma sd_nonzero k t v : nth_error (equations md n) k = Some (t, v) -> in_sd inp k <> 0.
  Proof.
    intros Ek. unfold inp. rewrite (input_sd md p n df ids lv ar params ps val H Hval k t v Ek).
    apply Hreg. apply (In_params_index md p _ Hwf Hp). constructor.
    destruct (C09_measurement_parameters R 0 1 ln md p n (length ids) params ps Hwf (idx_NoDup md p Hwf Hg Hp) Hp Hn Hlen Hps)
      as (_ & _ & _ & _ & Heq & _).
    destruct (proj2 (proj2 (Heq k t v Ek))) as (x & _ & (j' & Hj' & _)). apply nth_error_In in Hj'.
    apply (In_params_index md p _ Hwf Hp) in Hj'. inversion Hj'. assumption.
  Qed.

  Lemma fine_events : Forall (fine_event tfunc nl no inp (coefficient md val) (intercept md val)) (code_events 0 rows).
  Proof.
    apply Forall_forall. intros e He. pose proof (event_equation e rows O He) as E.
    assert (Q : forall k t b, nth_error rows (k - 0) = Some (t, b) -> in_sd inp k <> 0).
    { intros k t b Hk. rewrite Nat.sub_0_r in Hk. unfold rows in Hk. rewrite nth_error_map in Hk.
      destruct (nth_error (equations md n) k) as [[t' v]|] eqn:Ek; [|discriminate]. eapply sd_nonzero, Ek. }
    destruct e as [k t|k t|t]; cbn [fine_event good_event].
    - destruct E as (_ & b & Hk). eapply Q, Hk.
    - destruct E as (_ & b & Hk). eapply Q, Hk.
    - assert (Ht : (t + 1 < n)%nat).
      { rewrite rows_periods in E. apply in_map_iff in E as ([t' v] & E & Hin). cbn [fst] in E. subst t'.
        apply equations_period in Hin. lia. }
      split; [|split].
      + exact (a_transition_affine t Ht).
      + intros f Hf. pose proof (factor_nth md f Hf) as Hj.
        destruct (scale_constant md p n df ids lv ar params ps val H Hval Hclean Hord (t + 1) f (factor md f) ltac:(lia)) as [E' _].
        { rewrite nth_error_app1 by exact Hf. exact Hj. }
        unfold inp. rewrite E'. apply Hscale; [lia|]. eapply nth_error_In, Hj.
      + intros f Hf. unfold inp. rewrite (input_shock md p n df ids lv ar params ps val H Hval t f Ht Hf).
        apply Hreg. apply (In_params_index md p _ Hwf Hp). apply (par_shock_sd md t _ n); [exact Hn|exact Ht|].
        eapply nth_error_In. apply factor_nth. exact Hf.
  Qed.

  Section Individual.
    Variables (i : nat) (id : Z) (data : nat -> string -> option R).
    Hypothesis Hi : nth_error ids i = Some id.
    Hypothesis Hdata : individual_data md n df lv id data.

    Lemma anchored_input t x k g : (t < n)%nat -> nth_error all k = Some g ->
      anchored_value nan md val data t x g
      = SpecKalman.all_factors nl (x t) (fun o => to_number nan (in_observed inp t i o)) k * in_scaling inp t k + in_constants inp t k.
    Proof.
      intros Ht Hk. destruct (scale_constant md p n df ids lv ar params ps val H Hval Hclean Hord t k g Ht Hk) as [A B].
      fold inp in A, B. rewrite A, B.
      pose proof (value_all nan md p n df ids lv ar params ps i id data H Hi Hdata t x k g Ht Hk) as V.
      fold inp nl in V. rewrite <- V. unfold anchored_value, factor_value.
      destruct (position g (latent_of md)) as [j|] eqn:E; [ring|].
      assert (F : ~ In g (latent_of md)).
      { intros F. apply In_nth_error in F as [j Hj]. rewrite (position_nth _ _ j) in E; [discriminate| |exact Hj].
        destruct Hg as [Hnd _]. now apply NoDup_app_l in Hnd. }
      destruct (unanchored_observed md val Hclean t g F) as [-> ->]. ring.
    Qed.

    Lemma a_transition_by_label t x : (t + 1 < n)%nat ->
      anchored_transition_equation nan md val data t x = shock_density nan tfunc nl inp i t x.
    Proof.
      intros Ht. unfold anchored_transition_equation, shock_density. rewrite (prod_list_rprod ""%string).
      apply rprod_ext. intros j Hj. fold (factor md j).
      pose proof (input_shock md p n df ids lv ar params ps val H Hval t j Ht Hj) as IS. fold inp in IS. rewrite IS.
      rewrite (value_latent nan md p n df ids lv ar params ps data H) by exact Hj. f_equal.
      unfold expected_next, anchored_transition.
      assert (Hj' : nth_error all j = Some (factor md j)) by (unfold all; rewrite nth_error_app1 by exact Hj; now apply factor_nth).
      destruct (scale_constant md p n df ids lv ar params ps val H Hval Hclean Hord (t + 1) j (factor md j) ltac:(lia) Hj') as [A B].
      fold inp in A, B. rewrite A, B. f_equal. f_equal.
      symmetry. apply (a_transition_linear t j _ (anchored_value nan md val data t x) Ht Hj).
      intros k g Hk. rewrite Nat.add_0_r. apply anchored_input; [lia|exact Hk].
    Qed.

    Lemma measured_labels x eqs : forall s,
      (forall k tv, nth_error eqs k = Some tv -> nth_error (equations md n) (s + k) = Some tv) ->
      map (fun kt => equation_density nan nl nc inp i (fst kt) (snd kt) x) (measured_only (code_events s (map purpose eqs)))
      = map (fun tv => measurement_equation nan md val data tv x) (measurements_among md eqs).
    Proof.
      induction eqs as [|[t v] eqs IH]; intros s Heq; [reflexivity|]. cbn [map]. rewrite events_head.
      change (ev s (purpose (t, v)) :: gap (fst (purpose (t, v))) (map purpose eqs) ++ code_events (S s) (map purpose eqs))
        with ([ev s (purpose (t, v))] ++ gap (fst (purpose (t, v))) (map purpose eqs) ++ code_events (S s) (map purpose eqs)).
      rewrite !measured_only_app, gap_measured. cbn [app]. rewrite map_app, IH.
      2:{ intros k tv Hk. rewrite <- (Heq (S k) tv Hk). f_equal. lia. }
      unfold measurements_among. cbn [filter fst snd]. unfold purpose at 1. unfold ev. cbn [fst snd].
      destruct (is_anchoring_equation md v); [reflexivity|]. cbn [measured_only flat_map app negb map fst snd]. f_equal.
      symmetry. apply (equation_by_label nan md p n df ids lv ar params ps val i id data H Hval Hi Hdata).
      rewrite <- (Heq O (t, v) eq_refl). now rewrite Nat.add_0_r.
    Qed.

    Lemma a_density evs j t m x : walks 0 evs = Some t -> (t < n)%nat -> (m < nm)%nat ->
      measured_only evs = measured_only (code_events 0 (firstn j rows)) ->
      element nl i (initial_belief ps) m (x O) * prod_list (map (fun ev => event_density nan tfunc nl nc inp i ev x) evs)
      = element_density nan md val data m (measurements_among md (firstn j (equations md n))) t x.
    Proof.
      intros Hw Ht Hm Hmeas. rewrite (events_density nan tfunc nl nc inp i x _ _ _ Hw). unfold element_density, element, initial_element.
      rewrite Hmeas. unfold rows. rewrite firstn_map.
      rewrite (measured_labels x (firstn j (equations md n)) O).
      2:{ intros k tv Hk. cbn [Nat.add]. rewrite <- (firstn_skipn j (equations md n)). rewrite nth_error_app1; [exact Hk|]. apply nth_error_Some. congruence. }
      rewrite <- Rmult_assoc. f_equal. f_equal.
      - destruct (belief_entry md p n df ids lv ar params ps val i id H Hval Hi Hreg m Hm) as (_ & Hme & Hc).
        refine (proj2 (mvn_density_ext nl _ _ _ _ _ (initial_root md p n df ids lv ar params ps val i id H Hval Hi Hreg m Hm) _ _ _)).
        + intros a b Ha Hb Hlt. now rewrite (proj2 (Nat.leb_gt a b)) by exact Hlt.
        + intros a b Ha Hb. unfold cov. apply rsum_ext. intros c Hcl. now rewrite !Hc by assumption.
        + exact Hme.
      - rewrite Nat.sub_0_r, (prod_list_rprod O), seq_length. apply rprod_ext. intros s Hs. rewrite seq_nth by exact Hs. cbn [Nat.add].
        symmetry. apply a_transition_by_label. lia.
    Qed.

    Let runs := run qr nan tfunc (length ids) nm nl no nc kappa inp.
    Let follows := follow qr nan tfunc (length ids) nm nl no nc kappa inp.
    Let predictions := preds qr nan tfunc (length ids) nm nl no nc kappa inp i.
    Let b0 := initial_belief ps.
    Let predictive (k m : nat) : R := snd (nth k (predictions (code_events 0 rows) b0) (false, fun _ => 1)) m.

    Lemma prod_nth (l : list (bool * (nat -> R))) m : product_all l m = rprod (length l) (fun j => snd (nth j l (false, fun _ => 1)) m).
    Proof. unfold product_all. now rewrite (prod_list_rprod (false, fun _ : nat => 1)). Qed.

    (** The first j equations. *)
    Lemma a_prefix recs evs rest j t : runs (code_events 0 rows) b0 = Ok recs ->
      code_events 0 rows = evs ++ rest -> length (measured evs) = j ->
      measured_only evs = measured_only (code_events 0 (firstn j rows)) ->
      walks 0 evs = Some t -> (t < n)%nat ->
      exists b', good_belief nm nl i b' /\ follows evs b0 = Ok b' /\ runs evs b0 = Ok (firstn j recs) /\
        length (predictions evs b0) = j /\
        predictions (code_events 0 rows) b0 = predictions evs b0 ++ predictions rest b' /\
        forall m, (m < nm)%nat ->
          exp (be_logw b0 i m) * rprod j (fun k => predictive k m) = exp (total i (firstn j recs)) * exp (be_logw b' i m) /\
          let before := measurements_among md (firstn j (equations md n)) in
          exists c, 0 < c /\
            integrates (entries_before nl t) (element_density nan md val data m before t) (fun x => c * element nl i b' m (x t)) /\
            integrates (entries_before nl (S t)) (element_density nan md val data m before t) (fun _ => c) /\
            forall k v, nth_error (equations md n) k = Some (t, v) ->
              integrates (entries_before nl (S t)) (element_density nan md val data m (before ++ [(t, v)]) t)
                (fun _ => c * predicted nan nl nc inp i k t b' m).
    Proof.
      intros Er Esplit Lj Hmeas Hw Ht. pose proof Er as Er'. rewrite Esplit in Er'.
      destruct (run_app _ _ _ _ _ _ _ _ _ _ _ _ _ _ Er') as (b1 & r1 & r2 & F & R1 & R2 & Erecs).
      assert (L1 : length r1 = j) by (rewrite (run_length _ _ _ _ _ _ _ _ _ _ _ _ _ R1); exact Lj).
      assert (E1 : firstn j recs = r1).
      { rewrite Erecs, firstn_app, L1, Nat.sub_diag, firstn_O, app_nil_r. rewrite <- L1. apply firstn_all. }
      assert (Hfine : Forall (fine_event tfunc nl no inp (coefficient md val) (intercept md val)) evs).
      { pose proof fine_events as A. rewrite Esplit in A. apply Forall_app in A. apply A. }
      pose proof (initial_good md p n df ids lv ar params ps val i id H Hval Hi Hreg) as Hinit. fold b0 nm nl in Hinit.
      destruct (walks_density qr Hqr nan tfunc (length ids) nm nl no nc kappa inp i (coefficient md val) (intercept md val)
        a_mixtures_pos a_shape_ok Hkappa a_factors_pos evs 0 t b0 r1 Hw Hfine Hinit R1) as (Lp & _).
      destruct (walks_integral qr Hqr nan tfunc (length ids) nm nl no nc kappa inp i (coefficient md val) (intercept md val)
        a_mixtures_pos a_shape_ok Hkappa a_factors_pos evs t b0 r1 Hw Hfine Hinit R1) as (b' & F' & Hb' & HM).
      pose proof (preds_app qr nan tfunc (length ids) nm nl no nc kappa inp i evs rest b0 b' F') as Epreds.
      rewrite <- Esplit in Epreds. fold predictions in Epreds, Lp, HM.
      exists b'. split; [exact Hb'|]. split; [exact F'|]. split; [rewrite E1; exact R1|]. split; [lia|]. split; [exact Epreds|].
      intros m Hm. destruct (HM m Hm) as (Wt & I1 & I2 & I3). split.
      - rewrite E1, <- Wt. f_equal. rewrite prod_nth, Lp, L1. apply rprod_ext. intros k Hk. unfold predictive.
        rewrite Epreds, app_nth1 by lia. reflexivity.
      - intros before. exists (product_measured (predictions evs b0) m). split; [|split; [|split]].
        + pose proof (preds_pos qr nan tfunc (length ids) nm nl no nc kappa inp i (coefficient md val) (intercept md val) evs b0 Hfine) as P.
          fold predictions in P. clear -P. unfold product_measured.
          induction P as [|[f c] l Hc _ IH]; [cbn; lra|]. unfold prod_list in *. cbn [map fold_right fst snd] in *.
          apply Rmult_lt_0_compat; [|exact IH]. destruct f; [lra|apply Hc].
        + refine (integrates_ext _ _ _ _ _ _ _ I1); [|reflexivity]. intros x. now apply a_density.
        + refine (integrates_ext _ _ _ _ _ _ _ I2); [|reflexivity]. intros x. now apply a_density.
        + intros k v Hk. refine (integrates_ext _ _ _ _ _ _ _ (I3 k (sd_nonzero k t v Hk))); [|reflexivity].
          intros x. pose proof (a_density evs j t m x Hw Ht Hm Hmeas) as D. fold b0 before in D. rewrite D. clear D.
          pose proof (equation_by_label nan md p n df ids lv ar params ps val i id data H Hval Hi Hdata k t v x Hk) as D.
          fold nl nc inp in D. rewrite <- D. clear D.
          unfold element_density. rewrite map_app, prod_list_app. unfold prod_list at 3. cbn [map fold_right]. ring.
    Qed.

    Lemma events_count l : forall k, length (measured (code_events k l)) = length l.
    Proof.
      induction l as [|tb l IH]; intros k; [reflexivity|]. rewrite events_head.
      change (ev k tb :: gap (fst tb) l ++ code_events (S k) l) with ([ev k tb] ++ gap (fst tb) l ++ code_events (S k) l).
      unfold measured in *. rewrite !flat_map_app, !app_length, IH.
      assert (G : length (flat_map (fun e => match e with Measure k t => [(k, t)] | Anchor k t => [(k, t)] | Transition _ => [] end) (gap (fst tb) l)) = O).
      { destruct l as [|tb' l]; [reflexivity|]. unfold gap. now destruct (fst tb' =? S (fst tb))%nat. }
      rewrite G. unfold ev. destruct (snd tb); reflexivity.
    Qed.

    Lemma firstn_S {A} (l : list A) k a : nth_error l k = Some a -> firstn (S k) l = firstn k l ++ [a].
    Proof.
      revert k. induction l as [|x l IH]; intros [|k] Hk; try discriminate; cbn [firstn app nth_error] in *.
      - now injection Hk as ->.
      - f_equal. now apply IH.
    Qed.

    Lemma walks_prefix k t b : nth_error rows k = Some (t, b) -> walks 0 (code_events 0 (firstn (S k) rows)) = Some t.
    Proof.
      intros Hk. pose proof (firstn_S rows k _ Hk) as Hsplit.
      destruct rows_chain as (tb & l & El & E0 & Hc). rewrite El in *. cbn [firstn] in *.
      rewrite <- E0. rewrite walks_events.
      2:{ rewrite E0, <- firstn_map. now apply chain_firstn. }
      f_equal. destruct k as [|k].
      - cbn in Hk. injection Hk as ->. reflexivity.
      - assert (Hl : firstn (S k) l = firstn k l ++ [(t, b)]) by exact (f_equal (@tl _) Hsplit).
        rewrite Hl, map_app. cbn [map]. apply last_last.
    Qed.

    (** Equation k. *)
    Lemma a_equation recs k t v : runs (code_events 0 rows) b0 = Ok recs -> nth_error (equations md n) k = Some (t, v) ->
      forall m, (m < nm)%nat ->
        let before := measurements_among md (firstn k (equations md n)) in
        0 < predictive k m /\
        exists c, 0 < c /\
          integrates (entries_before nl (S t)) (element_density nan md val data m before t) (fun _ => c) /\
          integrates (entries_before nl (S t)) (element_density nan md val data m (before ++ [(t, v)]) t) (fun _ => c * predictive k m).
    Proof.
      intros Er Hk m Hm before. assert (Hrow : nth_error rows k = Some (purpose (t, v))) by (unfold rows; now rewrite nth_error_map, Hk).
      destruct (events_app (firstn (S k) rows) (skipn (S k) rows) 0) as [rest Erest]. rewrite firstn_skipn in Erest.
      pose proof (firstn_S rows k _ Hrow) as Hsplit.
      destruct (events_snoc (firstn k rows) (purpose (t, v)) 0) as (evs & Eevs & Emeas). rewrite <- Hsplit in Eevs.
      assert (Lk : length (firstn k rows) = k).
      { rewrite firstn_length. assert (k < length rows)%nat by (apply nth_error_Some; congruence). lia. }
      rewrite Lk in Eevs. cbn [Nat.add] in Eevs.
      assert (Ht : (t < n)%nat) by (apply (equations_period md n t v); eapply nth_error_In, Hk).
      pose proof (walks_prefix k t _ Hrow) as Hw. rewrite Eevs, walks_app in Hw.
      destruct (walks 0 evs) as [e|] eqn:Ew; [|discriminate].
      assert (e = t) as ->.
      { unfold ev, purpose in Hw. cbn [fst snd] in Hw. destruct (is_anchoring_equation md v); cbn [walks] in Hw;
          (destruct (Nat.eqb_spec t e) as [E|]; [now symmetry|discriminate]). }
      assert (Lm : length (measured evs) = k).
      { pose proof (events_count (firstn (S k) rows) 0) as C. rewrite Eevs, Hsplit in C. unfold measured in *.
        rewrite flat_map_app, !app_length, Lk in C. unfold ev, purpose in C. cbn [fst snd] in C.
        destruct (is_anchoring_equation md v); cbn in C; lia. }
      rewrite Eevs, <- app_assoc in Erest. cbn [app] in Erest.
      destruct (a_prefix recs evs (ev k (purpose (t, v)) :: rest) k t Er Erest Lm Emeas Ew Ht) as (b' & Hb' & F & R1 & Lp & Epreds & HM).
      assert (Epk : predictive k m = predicted nan nl nc inp i k t b' m).
      { unfold predictive. rewrite Epreds, app_nth2, Lp, Nat.sub_diag by lia. unfold ev, purpose. cbn [fst snd].
        destruct (is_anchoring_equation md v); reflexivity. }
      destruct (HM m Hm) as (_ & c & Hc & _ & I2 & I3). rewrite Epk. split; [apply predicted_pos; eapply sd_nonzero, Hk|].
      exists c. split; [exact Hc|]. split; [exact I2|]. exact (I3 k v Hk).
    Qed.

    (** After equation k. *)
    Lemma a_filtered recs k t v : runs (code_events 0 rows) b0 = Ok recs -> nth_error (equations md n) k = Some (t, v) ->
      exists b' rec, good_belief nm nl i b' /\ nth_error recs k = Some rec /\ re_states rec = be_states b' /\ re_logw rec = be_logw b' /\
      forall m, (m < nm)%nat ->
        exp (be_logw b0 i m) * rprod (S k) (fun j => predictive j m) = exp (total i (firstn (S k) recs)) * exp (be_logw b' i m) /\
        exists c, 0 < c /\
          integrates (entries_before nl t) (element_density nan md val data m (measurements_among md (firstn (S k) (equations md n))) t)
            (fun x => c * element nl i b' m (x t)).
    Proof.
      intros Er Hk. assert (Hrow : nth_error rows k = Some (purpose (t, v))) by (unfold rows; now rewrite nth_error_map, Hk).
      destruct (events_app (firstn (S k) rows) (skipn (S k) rows) 0) as [rest Erest]. rewrite firstn_skipn in Erest.
      assert (Ht : (t < n)%nat) by (apply (equations_period md n t v); eapply nth_error_In, Hk).
      assert (Hlt : (k < length rows)%nat) by (apply nth_error_Some; congruence).
      destruct (a_prefix recs (code_events 0 (firstn (S k) rows)) rest (S k) t Er Erest) as (b' & Hb' & F & R1 & _ & _ & HM).
      { rewrite events_count, firstn_length. lia. }
      { reflexivity. }
      { exact (walks_prefix k t _ Hrow). }
      { exact Ht. }
      assert (Hrec : exists rec, nth_error recs k = Some rec /\ re_states rec = be_states b' /\ re_logw rec = be_logw b').
      { pose proof (firstn_S rows k _ Hrow) as Hsplit.
        destruct (events_snoc (firstn k rows) (purpose (t, v)) 0) as (evs & Eevs & _). rewrite <- Hsplit in Eevs.
        rewrite Eevs in F, R1. destruct (run_app _ _ _ _ _ _ _ _ _ _ _ _ _ _ R1) as (b1 & r1 & r2 & F1 & Q1 & Q2 & Q3).
        unfold follows in F. rewrite (follow_snoc _ _ _ _ _ _ _ _ _ _ _ _ _ b1 F1) in F.
        assert (L1 : length r1 = k).
        { pose proof (run_length _ _ _ _ _ _ _ _ _ _ _ _ _ Q1) as L. rewrite L.
          pose proof (events_count (firstn (S k) rows) 0) as C. rewrite Eevs, (firstn_length (S k) rows) in C. unfold measured in *.
          rewrite flat_map_app, app_length in C. unfold ev in C.
          destruct (snd (purpose (t, v))); cbn [flat_map app length] in C; lia. }
        assert (G : forall rec, r2 = [rec] -> nth_error recs k = Some rec).
        { intros rec ->. rewrite <- (firstn_skipn (S k) recs), Q3, <- app_assoc, nth_error_app2, L1, Nat.sub_diag by lia. reflexivity. }
        unfold ev in F, Q2. destruct (snd (purpose (t, v))); cbn [follow run] in F, Q2; cbn [rbind] in Q2.
        - exists (snd (update_event qr nan nm nl nc inp true (0 + length (firstn k rows)) (fst (purpose (t, v))) b1)).
          split; [apply G; congruence|]. assert (Eb : b' = fst (update_event qr nan nm nl nc inp true (0 + length (firstn k rows)) (fst (purpose (t, v))) b1)) by congruence.
          rewrite Eb. split; reflexivity.
        - exists (snd (update_event qr nan nm nl nc inp false (0 + length (firstn k rows)) (fst (purpose (t, v))) b1)).
          split; [apply G; congruence|]. assert (Eb : b' = fst (update_event qr nan nm nl nc inp false (0 + length (firstn k rows)) (fst (purpose (t, v))) b1)) by congruence.
          rewrite Eb. split; reflexivity. }
      destruct Hrec as (rec & A & B & C). exists b', rec. split; [exact Hb'|]. split; [exact A|]. split; [exact B|]. split; [exact C|].
      intros m Hm. destruct (HM m Hm) as (Wt & c & Hc & I1 & _). split; [exact Wt|]. eauto.
    Qed.
  End Individual.
End Anchored.

(** * C107 *)

(** What the likelihood of a linear model with anchoring is, for every individual.

    Given a mixture element, let [predictive k] be the density of the variable of equation
    [k] given the measurements before it: the ratio of the integral of the joint density
    of the factors, of the measurements before equation [k] and of the variable of
    equation [k] to the integral of the same density without that variable. Anchoring
    outcomes before [k] are not among the data that are conditioned on. Then exp of the
    sum of the first contributions is the sum over all elements of the weight times the
    product of these densities, and the reported weights are the corresponding posterior
    probabilities of the elements. The reported states are the means of the factors in
    each element given the measurements so far. With one element, each contribution is
    the logarithm of the predictive density.

    Missing: the likelihood is not the joint density of the measurements and the anchoring
    outcomes; see [C107_refuted]. *)
Theorem C107_anchored_likelihood_partial :
  forall qr nan neg_inf custom md p n df ids lv ar params ps val,
    correct_qr qr -> anchored_setting nan neg_inf custom md p n df ids lv ar params ps val ->
    exists out dbg,
      log_likelihood qr nan (model_tfunc nan neg_inf custom md (p_labels p)) p ar true params = Ok out /\
      out_debug out = Some dbg /\
      forall i id data, nth_error ids i = Some id -> individual_data md n df lv id data ->
      exists predictive : nat -> nat -> R,
        let nl := length (latent_of md) in
        let weight := fun m => val (CMixWeights, O, mixture_name m, "-"%string) in
        (forall k t v m, nth_error (equations md n) k = Some (t, v) -> (m < n_mixtures_of md)%nat ->
           let before := measurements_among md (firstn k (equations md n)) in
           let so_far := measurements_among md (firstn (S k) (equations md n)) in
           0 < predictive k m /\
           (exists c, 0 < c /\
              integrates (entries_before nl (S t)) (element_density nan md val data m before t) (fun _ => c) /\
              integrates (entries_before nl (S t)) (element_density nan md val data m (before ++ [(t, v)]) t)
                (fun _ => c * predictive k m)) /\
           (exists c root, 0 < c /\ proper_root nl root /\
              integrates (entries_before nl t) (element_density nan md val data m so_far t)
                (fun x => c * mvn_density nl (do_filtered_states dbg k i m) root (x t))) /\
           exp (rsum (S k) (fun j => do_all_contributions dbg j i)) * exp (do_logw dbg k i m)
           = weight m * rprod (S k) (fun j => predictive j m)) /\
        (forall k, (k <= length (equations md n))%nat ->
           exp (rsum k (fun j => do_all_contributions dbg j i))
           = rsum (n_mixtures_of md) (fun m => weight m * rprod k (fun j => predictive j m))) /\
        (n_mixtures_of md = 1%nat -> forall k, (k < length (equations md n))%nat ->
           do_all_contributions dbg k i = ln (predictive k O)) /\
        (o_clip_lower (p_options p) = None -> o_clip_upper (p_options p) = None ->
           exp (out_contributions out i)
           = rsum (n_mixtures_of md) (fun m => weight m * rprod (length (equations md n)) (fun j => predictive j m))).
Proof.
  intros qr nan neg_inf custom md p n df ids lv ar params ps val Hqr HS.
  assert (H : likelihood_setting md p n df ids lv ar params ps) by apply HS.
  assert (Hwf : wf_dicts md) by apply H. assert (Hp : process_model md = Ok p) by apply H.
  assert (Hn : has_n_periods md n) by apply H.
  assert (Hval : parameter_values (params_index_of p) params val) by apply HS.
  assert (Hreg : regular_parameters md (params_index_of p) val) by apply HS.
  assert (Hfit : shapes_fit (length ids) (n_mixtures (p_dims p)) (n_observed (p_dims p)) = true).
  { apply shapes_fit_spec. destruct (p_dims_eq md p Hp) as (_ & -> & _ & -> & _).
    destruct HS as (_ & _ & _ & _ & _ & _ & [-> | ->] & _); auto. }
  destruct (likelihood_events qr nan (model_tfunc nan neg_inf custom md (p_labels p)) md p n df ids lv ar params ps true H Hfit)
    as (recs & out & Er & Hl & Ho & Hr).
  destruct Hr as (_ & Hc & _ & Hd). destruct (Hd eq_refl) as (dbg & Hdbg & _ & _ & Hrec).
  exists out, dbg. split; [exact Ho|]. split; [exact Hdbg|]. intros i id data Hi Hdata.
  assert (Ll : length recs = length (equations md n)).
  { rewrite Hl, (equations_update md p n Hwf Hp Hn). symmetry. apply map_length. }
  rewrite (purposes_rows nan neg_inf custom md p n df ids lv ar params ps val HS) in Er.
  unfold run_model in Er. destruct (p_dims_eq md p Hp) as (Dl & Do & Dc & Dm & _). rewrite Dl, Do, Dc, Dm in Er.
  pose proof (a_equation qr Hqr nan neg_inf custom md p n df ids lv ar params ps val HS i id data Hi Hdata recs) as AE.
  pose proof (a_filtered qr Hqr nan neg_inf custom md p n df ids lv ar params ps val HS i id data Hi Hdata recs) as AF.
  match type of AE with context [snd (nth _ ?l _) _] => set (L := l) in * end.
  set (predictive := fun k m => snd (nth k L (false, fun _ => 1)) m).
  exists predictive. cbv zeta.
  set (nl := length (latent_of md)). set (nm := n_mixtures_of md).
  set (d := mk_record (fun _ => 0) (fun _ _ _ => 0) (fun _ _ => 0) (fun _ _ => None) (fun _ _ => None)).
  assert (Et : forall k, (k <= length (equations md n))%nat -> total i (firstn k recs) = rsum k (fun j => do_all_contributions dbg j i)).
  { intros k Hk. unfold total. rewrite (sum_list_firstn _ d) by lia. apply rsum_ext.
    intros j Hj. destruct (Hrec j (nth j recs d)) as (-> & _); [|reflexivity]. apply nth_error_nth'. lia. }
  assert (W0 : forall m, (m < nm)%nat -> exp (be_logw (initial_belief ps) i m) = val (CMixWeights, O, mixture_name m, "-"%string)).
  { intros m Hm. apply (belief_entry md p n df ids lv ar params ps val i id H Hval Hi Hreg m Hm). }
  assert (First : forall k t v m, nth_error (equations md n) k = Some (t, v) -> (m < nm)%nat ->
     let before := measurements_among md (firstn k (equations md n)) in
     let so_far := measurements_among md (firstn (S k) (equations md n)) in
     0 < predictive k m /\
     (exists c, 0 < c /\
        integrates (entries_before nl (S t)) (element_density nan md val data m before t) (fun _ => c) /\
        integrates (entries_before nl (S t)) (element_density nan md val data m (before ++ [(t, v)]) t)
          (fun _ => c * predictive k m)) /\
     (exists c root, 0 < c /\ proper_root nl root /\
        integrates (entries_before nl t) (element_density nan md val data m so_far t)
          (fun x => c * mvn_density nl (do_filtered_states dbg k i m) root (x t))) /\
     exp (rsum (S k) (fun j => do_all_contributions dbg j i)) * exp (do_logw dbg k i m)
     = val (CMixWeights, O, mixture_name m, "-"%string) * rprod (S k) (fun j => predictive j m) /\
     rsum nm (fun m => exp (do_logw dbg k i m)) = 1).
  { intros k t v m Hk Hm before so_far. assert (Hkl : (k < length (equations md n))%nat) by (apply nth_error_Some; congruence).
    destruct (AE k t v Er Hk m Hm) as (P & I). split; [exact P|]. split; [exact I|].
    destruct (AF k t v Er Hk) as (b' & rec & [Hproper Hsum] & Hnth & Hst & Hlw & HM).
    destruct (Hrec k rec Hnth) as (_ & _ & _ & Dst & Dlw).
    destruct (HM m Hm) as (Wt & c & Hc' & I1). split; [|split].
    - exists c, (be_chols b' i m). split; [exact Hc'|]. split; [now apply Hproper|]. rewrite Dst, Hst. exact I1.
    - rewrite Dlw, Hlw, <- (Et (S k)), <- (W0 m Hm) by lia. symmetry. exact Wt.
    - rewrite Dlw, Hlw. exact Hsum. }
  assert (Sum : forall k, (k <= length (equations md n))%nat ->
     exp (rsum k (fun j => do_all_contributions dbg j i))
     = rsum nm (fun m => val (CMixWeights, O, mixture_name m, "-"%string) * rprod k (fun j => predictive j m))).
  { intros [|k] Hk.
    - cbn [rsum rprod]. rewrite exp_0. destruct Hreg as (_ & _ & _ & _ & Hs). fold nm in Hs. etransitivity; [symmetry; exact Hs|].
      apply rsum_ext. intros; ring.
    - destruct (nth_error (equations md n) k) as [[t v]|] eqn:Ek; [|apply nth_error_None in Ek; lia].
      rewrite (rsum_ext nm _ (fun m => exp (rsum (S k) (fun j => do_all_contributions dbg j i)) * exp (do_logw dbg k i m))).
      2:{ intros m Hm. destruct (First k t v m Ek Hm) as (_ & _ & _ & E & _). now rewrite E. }
      rewrite rsum_scal_l.
      assert (Hm0 : (0 < nm)%nat).
      { destruct Hreg as (_ & _ & _ & _ & Hs). fold nm in Hs. clearbody nm. destruct nm; [|lia]. cbn [rsum] in Hs. lra. }
      destruct (First k t v O Ek Hm0) as (_ & _ & _ & _ & ->). ring. }
  split; [|split; [exact Sum|split]].
  - intros k t v m Hk Hm. destruct (First k t v m Hk Hm) as (A & B & C & D & _). auto.
  - intros N1 k Hk. fold nm in N1.
    assert (Hw1 : val (CMixWeights, O, mixture_name 0, "-"%string) = 1).
    { destruct Hreg as (_ & _ & _ & _ & Hs). fold nm in Hs. rewrite N1 in Hs. cbn [rsum] in Hs. lra. }
    pose proof (Sum k ltac:(lia)) as S0. pose proof (Sum (S k) ltac:(lia)) as S1. rewrite N1 in S0, S1. cbn [rsum] in S0, S1.
    rewrite Hw1 in S0, S1. cbn [rprod] in S1. rewrite exp_plus in S1.
    assert (P : exp (do_all_contributions dbg k i) = predictive k O).
    { pose proof (exp_pos (rsum k (fun j => do_all_contributions dbg j i))) as Q.
      apply (Rmult_eq_reg_l (exp (rsum k (fun j => do_all_contributions dbg j i)))); [|lra].
      rewrite S1, S0. ring. }
    now rewrite <- P, ln_exp.
  - intros C1 C2. rewrite (Hc i). unfold contribution_of, clip_with. rewrite C1, C2. cbn [option_map].
    pose proof (Et (length recs) ltac:(lia)) as E. rewrite firstn_all, Ll in E.
    etransitivity; [exact (f_equal exp E)|]. apply Sum. lia.
Qed.
Print Assumptions C107_anchored_likelihood_partial.

(** ** An example *)

(** One factor in two periods, measured by y and anchored to the outcome q.  Individual 1
    has the outcome of the first period and the measurement of the second one; the others
    have everything. *)
Definition out_model : model_dict :=
  mk_md [("cog"%string, mk_factor [["y"]; ["y"]]%string (TStr "linear") None)]
    None None None (Some (mk_anch (Some [("cog", "q")]%string) None None None None))
    (Some (mk_opts (Some 1%nat) None None None (Some None) (Some None) None None)).
Definition out_p : processed := get_ok (process_model out_model) small_p.
Lemma out_accepted : process_model out_model = Ok out_p.
Proof. vm_compute. reflexivity. Qed.

Definition out_df : frame Z :=
  mk_frame ["y"; "q"]%string [1; 2; 3]%Z [0; 1]%Z
    [mk_drow 1 0 (cells [("q", 0)]%string); mk_drow 1 1 (cells [("y", 0)]%string);
     mk_drow 2 0 (cells [("y", 2); ("q", 3)]%string); mk_drow 2 1 (cells [("y", 9); ("q", 8)]%string);
     mk_drow 3 0 (cells [("y", 4); ("q", 1)]%string); mk_drow 3 1 (cells [("y", 2); ("q", 5)]%string)]%Z.

Lemma out_setting : data_setting out_model out_p 2 out_df [1; 2; 3]%Z [0; 1]%Z.
Proof.
  split; [|split; [exact out_accepted|split; [|split; [|split; [|split]]]]].
  - split; [repeat constructor; simpl; intuition|]. intros a o [= <-] [= <-]. repeat constructor. intros [].
  - split; [eexists _, _; split; [left; reflexivity|reflexivity]|]. intros f fs [[= <- <-]|[]]. simpl. lia.
  - split; [repeat constructor; intros []|]. intros fo [<-|[]]. vm_compute. intuition discriminate.
  - intros r Hr. repeat (destruct Hr as [<-|Hr]; [simpl; tauto|]). destruct Hr.
  - split; [repeat constructor|]. intros z. split.
    + intros [<-|[<-|[<-|[]]]].
      * eexists. split; [left; reflexivity|reflexivity].
      * eexists. split; [do 2 right; left; reflexivity|reflexivity].
      * eexists. split; [do 4 right; left; reflexivity|reflexivity].
    + intros (r & Hr & <-). repeat (destruct Hr as [<-|Hr]; [simpl; tauto|]). destruct Hr.
  - split; [repeat constructor|]. intros z. reflexivity.
Qed.

Lemma out_good_names : good_names out_model.
Proof.
  unfold good_names, without_char. repeat split.
  - repeat constructor; simpl; intuition discriminate.
  - simpl. intros f H. intuition subst; simpl in *; intuition discriminate.
  - simpl in H. intuition subst; simpl in *; intuition discriminate.
  - simpl in *. intuition subst; intuition discriminate.
  - intros g. simpl in H. intuition subst; discriminate.
  - repeat constructor; simpl; intuition.
  - simpl. intuition discriminate.
  - intros f fs n names [[= <- <-]|[]] E; simpl in E; discriminate.
Qed.

Lemma out_clean : clean_anchoring out_model.
Proof.
  split; [intros f o [[= <- <-]|[]]; now left|]. split; [repeat constructor; intros []|].
  intros t f o g [[= <- <-]|[]] (fs & ms & [[= <- <-]|[]] & Hms & Hv). simpl in Hms.
  destruct t as [|[|t]]; simpl in Hms; [| |destruct t; discriminate]; injection Hms as <-;
    simpl in Hv; repeat (destruct Hv as [Hv|Hv]; [discriminate Hv|]); destruct Hv.
Qed.

(** The factor starts with mean 0 and variance 1 and is a random walk with standard normal
    shocks; both variables are the factor plus standard normal noise. *)
Definition out_value (lb : label) : R :=
  match lb with
  | (CControls, _, _, _) => 0
  | (CInitStates, _, _, _) => 0
  | (CTransition, _, _, name) => if String.eqb name "cog" then 1 else 0
  | _ => 1
  end.
Definition out_params : list R := map out_value (params_index_of out_p).
Definition out_val : label -> R := val_of 0 (params_index_of out_p) out_params.

Lemma out_NoDup : NoDup (params_index_of out_p).
Proof. apply (idx_NoDup out_model out_p); [apply out_setting|exact out_good_names|exact out_accepted]. Qed.

Lemma out_at lb b : label_mem lb (params_index_of out_p) = b -> b = true -> out_val lb = out_value lb.
Proof. intros E Eb. exact (val_of_values (params_index_of out_p) out_value lb out_NoDup (proj1 (label_mem_In lb _) (eq_trans E Eb))). Qed.

Ltac out_val_tac := refine (eq_trans (out_at _ _ _ eq_refl) _); [vm_compute; reflexivity|reflexivity].

Lemma out_regular : regular_parameters out_model (params_index_of out_p) out_val.
Proof.
  assert (A : forall lb, In lb (params_index_of out_p) -> out_val lb = out_value lb).
  { intros lb Hlb. exact (val_of_values (params_index_of out_p) out_value lb out_NoDup Hlb). }
  assert (W : out_val (CMixWeights, O, mixture_name 0, "-"%string) = 1) by out_val_tac.
  split; [intros t v H; rewrite (A _ H); exact R1_neq_R0|].
  split; [intros t v H; rewrite (A _ H); exact R1_neq_R0|].
  split; [intros t v H; rewrite (A _ H); exact R1_neq_R0|]. change (n_mixtures_of out_model) with 1%nat. split.
  - intros e He. replace e with 0%nat by lia. rewrite W. lra.
  - cbn [rsum]. rewrite W. lra.
Qed.

Lemma out_scale t : (t < 2)%nat -> anchoring_scale out_model out_val t "cog" = 1 /\ anchoring_constant out_model out_val t "cog" = 0.
Proof.
  intros Ht. unfold anchoring_scale, anchoring_constant.
  destruct t as [|[|t]]; [| |lia]; split; out_val_tac.
Qed.

Lemma out_anchored nan neg_inf custom ar ps : total_custom custom ->
  likelihood_setting out_model out_p 2 (real_frame out_df) [1; 2; 3]%Z [0; 1]%Z ar out_params ps ->
  anchored_setting nan neg_inf custom out_model out_p 2 (real_frame out_df) [1; 2; 3]%Z [0; 1]%Z ar out_params ps out_val.
Proof.
  intros Hc H. split; [exact Hc|]. split; [exact H|].
  split; [intros f fs [[= <- <-]|[]]; reflexivity|].
  split; [intros t Ht; exists "y"%string; destruct t as [|[|t]]; [vm_compute; tauto..|lia]|].
  split; [exact out_clean|]. split; [reflexivity|]. split; [left; reflexivity|].
  split.
  { change (o_sigma_points_scale (p_options out_p)) with 2%Q. unfold Q2R. cbn [Qnum Qden QArith_base.inject_Z]. lra. }
  split; [exact (values_ok (params_index_of out_p) out_value out_NoDup)|]. split; [exact out_regular|].
  intros t f Ht [<-|[]] E'. apply R1_neq_R0. exact (eq_trans (eq_sym (proj1 (out_scale t Ht))) E').
Qed.

Definition out_data : nat -> string -> option R := given_value out_model 2 (real_frame out_df) [0; 1]%Z 1.

Lemma out_data_values :
  out_data 0 "y" = None /\ out_data 0 "q_cog" = Some 0 /\ out_data 1 "y" = Some 0 /\ out_data 1 "q_cog" = None.
Proof. repeat split. Qed.


Lemma out_first x : initial_element out_model out_val 0 x = normal_density 0 1 (x O O).
Proof.
  unfold initial_element. change (length (latent_of out_model)) with 1%nat.
  assert (M : out_val (CInitStates, O, mixture_name 0, factor out_model 0) = 0) by out_val_tac.
  assert (C : out_val (CInitChol, O, mixture_name 0, cov_name (factor out_model 0) (factor out_model 0)) = 1) by out_val_tac.
  rewrite mvn_density_S by (cbn [Nat.leb]; rewrite C; exact R1_neq_R0).
  unfold mvn_density. cbn [rprod rsum Nat.leb]. rewrite M, C. rewrite Rmult_1_l. f_equal; ring.
Qed.

Lemma out_next nan x : anchored_transition_equation nan out_model out_val out_data 0 x = normal_density (x O O) 1 (x 1%nat O).
Proof.
  unfold anchored_transition_equation. change (latent_of out_model) with ["cog"%string]. change (observed_of out_model) with (@nil string).
  cbn [map app prod_list fold_right Nat.add].
  destruct (out_scale 0 ltac:(lia)) as [A0 B0]. destruct (out_scale 1 ltac:(lia)) as [A1 B1]. rewrite A1, B1.
  assert (S : out_val (CShockSds, O, "cog", "-")%string = 1) by out_val_tac. rewrite S.
  assert (F : factor_value nan out_model out_data 1 x "cog" = x 1%nat O) by reflexivity. rewrite F.
  unfold linear_formula, linear_part, sum_of. cbn [map fold_right].
  assert (T : out_val (CTransition, O, "cog", "cog")%string = 1) by out_val_tac. rewrite T.
  assert (K : out_val (CTransition, O, "cog", "constant")%string = 0) by out_val_tac. rewrite K.
  assert (V : anchored_value nan out_model out_val out_data 0 x "cog" = anchoring_scale out_model out_val 0 "cog" * x O O + anchoring_constant out_model out_val 0 "cog") by reflexivity.
  rewrite V, A0, B0. rewrite !Rmult_1_r. f_equal. field.
Qed.

Lemma out_measured nan x t v : (t, v) = (0%nat, "q_cog"%string) \/ (t, v) = (1%nat, "y"%string) ->
  measurement_equation nan out_model out_val out_data (t, v) x = normal_density (x t O) 1 0.
Proof.
  intros H. unfold measurement_equation. change (latent_of out_model) with ["cog"%string].
  change (controls_of out_model) with (@nil string). unfold sum_of. cbn [map fold_right].
  assert (F : factor_value nan out_model out_data t x "cog" = x t O) by reflexivity. rewrite F.
  destruct out_data_values as (_ & D1 & D2 & _).
  destruct H as [[= -> ->]|[= -> ->]].
  - rewrite D1.
    assert (L : out_val (CLoadings, O, "q_cog", "cog")%string = 1) by out_val_tac. rewrite L.
    assert (C : out_val (CControls, O, "q_cog", "constant")%string = 0) by out_val_tac. rewrite C.
    assert (S : out_val (CMeasSds, O, "q_cog", "-")%string = 1) by out_val_tac. rewrite S. f_equal; ring.
  - rewrite D2.
    assert (L : out_val (CLoadings, 1%nat, "y", "cog")%string = 1) by out_val_tac. rewrite L.
    assert (C : out_val (CControls, 1%nat, "y", "constant")%string = 0) by out_val_tac. rewrite C.
    assert (S : out_val (CMeasSds, 1%nat, "y", "-")%string = 1) by out_val_tac. rewrite S. f_equal; ring.
Qed.

Lemma out_missing nan x t v : (t, v) = (0%nat, "y"%string) \/ (t, v) = (1%nat, "q_cog"%string) ->
  measurement_equation nan out_model out_val out_data (t, v) x = 1.
Proof.
  intros H. unfold measurement_equation. destruct out_data_values as (D0 & _ & _ & D3).
  destruct H as [[= -> ->]|[= -> ->]]; [rewrite D0|rewrite D3]; reflexivity.
Qed.

(** *** The integrals *)

Definition two_pi : R := sqrt (2 * PI).
Lemma two_pi_pos : 0 < two_pi.
Proof. apply sqrt_lt_R0. pose proof PI_RGT_0. lra. Qed.

Lemma unit_normal m z : normal_density m 1 z = / two_pi * exp (- ((z - m) * (z - m)) / 2).
Proof. unfold normal_density, two_pi. do 2 f_equal; [f_equal; ring|]. now rewrite Rmult_1_r. Qed.

Lemma bell_integral k q m : 0 < q ->
  line_integral (fun v => k * exp (- (q * ((v - m) * (v - m))) / 2)) (k * (two_pi / sqrt q)).
Proof.
  intros Hq. pose proof PI_RGT_0 as Hpi. assert (Hs : 0 < sqrt q) by now apply sqrt_lt_R0. pose proof two_pi_pos as Ht.
  replace (k * (two_pi / sqrt q)) with (k * (two_pi / sqrt q) * 1) by ring.
  apply (line_integral_ext (fun v => k * (two_pi / sqrt q) * normal_density m (/ q) v)).
  2:{ apply line_integral_scal, normal_density_integral. now apply Rinv_0_lt_compat. }
  intros v. unfold normal_density. rewrite sqrt_mult by (try apply Rlt_le, Rinv_0_lt_compat; lra).
  fold two_pi. rewrite (sqrt_inv q).
  replace (- ((v - m) * (v - m)) / (2 * / q)) with (- (q * ((v - m) * (v - m))) / 2) by (field; lra).
  field. lra.
Qed.

(** The integral over both factors of k exp (-(a x0^2 + (x1 - x0)^2 + x1^2) / 2). *)
Lemma walk_integral k a : 0 < a ->
  integrates (entries_before 1 2) (fun x => k * exp (- (a * (x O O * x O O) + (x 1%nat O - x O O) * (x 1%nat O - x O O) + x 1%nat O * x 1%nat O) / 2))
    (fun _ => k * (two_pi / sqrt (a + 1)) * (two_pi / sqrt (2 - / (a + 1)))).
Proof.
  intros Ha. assert (Hi : 0 < / (a + 1)) by (apply Rinv_0_lt_compat; lra).
  assert (Hi1 : / (a + 1) < 1) by (rewrite <- Rinv_1; apply Rinv_lt_contravar; lra).
  change (entries_before 1 2) with [(0%nat, 0%nat); (1%nat, 0%nat)].
  exists (fun x => k * (two_pi / sqrt (a + 1)) * exp (- ((2 - / (a + 1)) * (x 1%nat O * x 1%nat O)) / 2)). split.
  - intros x.
    apply (line_integral_ext (fun v => (k * exp (- ((2 - / (a + 1)) * (x 1%nat O * x 1%nat O)) / 2))
        * exp (- ((a + 1) * ((v - x 1%nat O / (a + 1)) * (v - x 1%nat O / (a + 1)))) / 2))).
    + intros v. rewrite Rmult_assoc, <- exp_plus. unfold set_entry. cbn [Nat.eqb andb]. do 2 f_equal. field. lra.
    + replace (k * (two_pi / sqrt (a + 1)) * exp (- ((2 - / (a + 1)) * (x 1%nat O * x 1%nat O)) / 2))
        with (k * exp (- ((2 - / (a + 1)) * (x 1%nat O * x 1%nat O)) / 2) * (two_pi / sqrt (a + 1))) by ring.
      apply bell_integral. lra.
  - exists (fun _ => k * (two_pi / sqrt (a + 1)) * (two_pi / sqrt (2 - / (a + 1)))). split; [|now intros].
    intros x. apply (line_integral_ext (fun v => k * (two_pi / sqrt (a + 1)) * exp (- ((2 - / (a + 1)) * ((v - 0) * (v - 0))) / 2))).
    + intros v. unfold set_entry. cbn [Nat.eqb andb]. now rewrite Rminus_0_r.
    + apply bell_integral. lra.
Qed.

(** The joint densities of the factors and some of the variables. *)
Lemma out_equations : equations out_model 2 = [(0%nat, "y"); (0%nat, "q_cog"); (1%nat, "y"); (1%nat, "q_cog")]%string.
Proof. reflexivity. Qed.

Lemma out_truth nan : integrates (entries_before 1 2)
  (element_density nan out_model out_val out_data 0 (equations out_model 2) 1)
  (fun _ => / (two_pi * two_pi) / sqrt 5).
Proof.
  pose proof two_pi_pos as Ht.
  eapply integrates_ext; [| |apply (walk_integral (/ (two_pi * two_pi * two_pi * two_pi)) 2); lra].
  - intros x. unfold element_density. rewrite out_equations. cbn [map prod_list fold_right rprod].
    rewrite out_first, out_next, (out_missing nan x 0 "y"), (out_missing nan x 1 "q_cog"), !out_measured by auto. rewrite !unit_normal.
    match goal with |- _ = ?t => transitivity (/ two_pi * / two_pi * / two_pi * / two_pi *
      (exp (- ((x O O - 0) * (x O O - 0)) / 2) * exp (- ((x 1%nat O - x O O) * (x 1%nat O - x O O)) / 2)
       * exp (- ((0 - x O O) * (0 - x O O)) / 2) * exp (- ((0 - x 1%nat O) * (0 - x 1%nat O)) / 2))) end.
    + rewrite <- !exp_plus. rewrite !Rinv_mult. f_equal. f_equal. field.
    + ring.
  - intros x. cbv beta. replace (2 - / (2 + 1)) with (5 / 3) by field.
    rewrite sqrt_div by lra. replace (2 + 1) with 3 by ring.
    assert (0 < sqrt 3) by (apply sqrt_lt_R0; lra). assert (0 < sqrt 5) by (apply sqrt_lt_R0; lra). field. lra.
Qed.

(** The density of the outcome of the first period, and of the later measurement without
    the outcome. *)
Lemma out_outcome nan : integrates (entries_before 1 1)
  (element_density nan out_model out_val out_data 0 [(0%nat, "y"); (0%nat, "q_cog")]%string 0)
  (fun _ => / two_pi / sqrt 2).
Proof.
  pose proof two_pi_pos as Ht. change (entries_before 1 1) with [(0%nat, 0%nat)].
  exists (fun _ => / (two_pi * two_pi) * (two_pi / sqrt 2)). split.
  - intros x. apply (line_integral_ext (fun v => / (two_pi * two_pi) * exp (- (2 * ((v - 0) * (v - 0))) / 2))).
    + intros v. unfold element_density. cbn [map prod_list fold_right rprod].
      rewrite out_first, out_missing, out_measured by auto. rewrite !unit_normal. unfold set_entry. cbn [Nat.eqb andb].
      transitivity (/ two_pi * / two_pi * (exp (- ((v - 0) * (v - 0)) / 2) * exp (- ((0 - v) * (0 - v)) / 2))).
      * rewrite <- exp_plus. rewrite Rinv_mult. f_equal. f_equal. field.
      * ring.
    + apply bell_integral. lra.
  - intros x. assert (0 < sqrt 2) by (apply sqrt_lt_R0; lra). field. lra.
Qed.

Lemma out_later nan : integrates (entries_before 1 2)
  (element_density nan out_model out_val out_data 0 [(0%nat, "y"); (1%nat, "y")]%string 1)
  (fun _ => / two_pi / sqrt 3).
Proof.
  pose proof two_pi_pos as Ht.
  eapply integrates_ext; [| |apply (walk_integral (/ (two_pi * two_pi * two_pi)) 1); lra].
  - intros x. unfold element_density. cbn [map prod_list fold_right rprod].
    rewrite out_first, out_next, out_missing, out_measured by auto. rewrite !unit_normal.
    transitivity (/ two_pi * / two_pi * / two_pi *
      (exp (- ((x O O - 0) * (x O O - 0)) / 2) * exp (- ((x 1%nat O - x O O) * (x 1%nat O - x O O)) / 2)
       * exp (- ((0 - x 1%nat O) * (0 - x 1%nat O)) / 2))).
    + rewrite <- !exp_plus. rewrite !Rinv_mult. f_equal. f_equal. field.
    + ring.
  - intros x. cbv beta. replace (2 - / (1 + 1)) with (3 / 2) by field.
    rewrite sqrt_div by lra. replace (1 + 1) with 2 by ring.
    assert (0 < sqrt 3) by (apply sqrt_lt_R0; lra). assert (0 < sqrt 2) by (apply sqrt_lt_R0; lra). field. lra.
Qed.

Lemma out_unique nan es eqs t c c' :
  integrates es (element_density nan out_model out_val out_data 0 eqs t) (fun _ => c) ->
  integrates es (element_density nan out_model out_val out_data 0 eqs t) (fun _ => c') -> c = c'.
Proof. intros H H'. exact (integrates_unique es _ _ _ _ (fun x => eq_refl) H H' (fun _ _ => 0)). Qed.

(** Dropping a missing variable changes nothing. *)
Lemma out_drop nan es eqs t c s v : (s, v) = (0%nat, "y"%string) \/ (s, v) = (1%nat, "q_cog"%string) ->
  integrates es (element_density nan out_model out_val out_data 0 (eqs ++ [(s, v)]) t) (fun _ => c) ->
  integrates es (element_density nan out_model out_val out_data 0 eqs t) (fun _ => c).
Proof.
  intros Hs. apply integrates_ext; [|reflexivity]. intros x. unfold element_density. f_equal.
  rewrite map_app. cbn [map]. rewrite out_missing by exact Hs. induction (map _ eqs) as [|a l IH]; [cbn; ring|].
  cbn [app prod_list fold_right] in *. unfold prod_list in IH. now rewrite IH.
Qed.

(** With the first two equations only, the factors integrate out. *)
Lemma out_prior nan : integrates (entries_before 1 2)
  (element_density nan out_model out_val out_data 0 [(0%nat, "y")]%string 1) (fun _ => 1) /\
  integrates (entries_before 1 1) (element_density nan out_model out_val out_data 0 [(0%nat, "y")]%string 0) (fun _ => 1).
Proof.
  split.
  - change (entries_before 1 2) with [(0%nat, 0%nat); (1%nat, 0%nat)].
    exists (fun x => / two_pi / sqrt 2 * exp (- (/ 2 * ((x 1%nat O - 0) * (x 1%nat O - 0))) / 2)).
    pose proof two_pi_pos as Ht. assert (S2 : 0 < sqrt 2) by (apply sqrt_lt_R0; lra). split.
    + intros x. apply (line_integral_ext (fun v => (/ (two_pi * two_pi) * exp (- (/ 2 * ((x 1%nat O - 0) * (x 1%nat O - 0))) / 2))
          * exp (- (2 * ((v - x 1%nat O / 2) * (v - x 1%nat O / 2))) / 2))).
      * intros v. unfold element_density. cbn [map prod_list fold_right rprod].
        rewrite out_first, out_next, out_missing by auto. rewrite !unit_normal. unfold set_entry. cbn [Nat.eqb andb].
        rewrite Rmult_assoc, <- exp_plus, Rinv_mult.
        transitivity (/ two_pi * / two_pi * (exp (- ((v - 0) * (v - 0)) / 2) * exp (- ((x 1%nat O - v) * (x 1%nat O - v)) / 2))).
        -- rewrite <- exp_plus. f_equal. f_equal. field.
        -- ring.
      * replace (/ two_pi / sqrt 2 * exp (- (/ 2 * ((x 1%nat O - 0) * (x 1%nat O - 0))) / 2))
          with (/ (two_pi * two_pi) * exp (- (/ 2 * ((x 1%nat O - 0) * (x 1%nat O - 0))) / 2) * (two_pi / sqrt 2)) by (field; lra).
        apply bell_integral. lra.
    + exists (fun _ => / two_pi / sqrt 2 * (two_pi / sqrt (/ 2))). split.
      * intros x. apply (line_integral_ext (fun v => / two_pi / sqrt 2 * exp (- (/ 2 * ((v - 0) * (v - 0))) / 2))).
        -- intros v. unfold set_entry. reflexivity.
        -- apply bell_integral. lra.
      * intros x. rewrite sqrt_inv. field. lra.
  - change (entries_before 1 1) with [(0%nat, 0%nat)]. exists (fun _ => 1). split; [|now intros].
    intros x. apply (line_integral_ext (fun v => normal_density 0 1 v)); [|apply normal_density_integral; lra].
    intros v. unfold element_density. cbn [map prod_list fold_right rprod].
    rewrite out_first, out_missing by auto. unfold set_entry. cbn [Nat.eqb andb]. ring.
Qed.

Lemma out_example : exists ar ps,
  likelihood_setting out_model out_p 2 (real_frame out_df) [1; 2; 3]%Z [0; 1]%Z ar out_params ps.
Proof.
  exact (any_example out_model out_p 2 out_df [1; 2; 3]%Z [0; 1]%Z
           (get_ok (process_data 1%Z Z.eqb out_df (p_labels out_p) (p_update out_p) (p_anch out_p) true) ex_arrays)
           out_value out_setting out_good_names out_clean ltac:(lia) ltac:(apply Nat.leb_le; reflexivity)
           ltac:(vm_compute; reflexivity)).
Qed.

Example C107_nonvacuous : exists md p n df ids lv ar params ps val i id data,
  anchored_setting 0 0 (fun _ _ _ _ => Ok 0) md p n df ids lv ar params ps val /\ length (outcomes_of md) = 1%nat /\
  nth_error ids i = Some id /\ individual_data md n df lv id data /\ data O "q_cog"%string <> None /\ data 1%nat "y"%string <> None.
Proof.
  destruct out_example as (ar & ps & H).
  exists out_model, out_p, 2%nat, (real_frame out_df), [1; 2; 3]%Z, [0; 1]%Z, ar, out_params, ps, out_val, 0%nat, 1%Z, out_data.
  split; [apply out_anchored; [intros name b c v; eexists; reflexivity|exact H]|]. split; [reflexivity|]. split; [reflexivity|].
  split; [intros t x Ht; apply given_handed|]. destruct out_data_values as (_ & -> & -> & _). split; discriminate.
Qed.

(** The full claim, that the likelihood is the joint density of the measurements and the
    anchoring outcomes at the data, is false: in the example, the outcome of the first
    period tells something about the factor, but the filter ignores it when it predicts
    the measurement of the second period. *)
Theorem C107_refuted :
  exists md p n df ids lv ar params ps val i id data,
    n_mixtures_of md = 1%nat /\ o_clip_lower (p_options p) = None /\ o_clip_upper (p_options p) = None /\
    nth_error ids i = Some id /\ individual_data md n df lv id data /\
    forall qr nan neg_inf custom, correct_qr qr -> total_custom custom ->
      anchored_setting nan neg_inf custom md p n df ids lv ar params ps val /\
      exists out joint,
        log_likelihood qr nan (model_tfunc nan neg_inf custom md (p_labels p)) p ar true params = Ok out /\
        integrates (entries_before (length (latent_of md)) n)
          (element_density nan md val data O (equations md n) (n - 1)) (fun _ => joint) /\
        exp (out_contributions out i) < joint.
Proof.
  destruct out_example as (ar & ps & H).
  exists out_model, out_p, 2%nat, (real_frame out_df), [1; 2; 3]%Z, [0; 1]%Z, ar, out_params, ps, out_val, 0%nat, 1%Z, out_data.
  split; [reflexivity|]. split; [reflexivity|]. split; [reflexivity|]. split; [reflexivity|].
  assert (Hd : individual_data out_model 2 (real_frame out_df) [0; 1]%Z 1 out_data) by (intros t x Ht; apply given_handed).
  split; [exact Hd|]. intros qr nan neg_inf custom Hqr Hc.
  pose proof (out_anchored nan neg_inf custom ar ps Hc H) as HA. split; [exact HA|].
  destruct (C107_anchored_likelihood_partial qr nan neg_inf custom _ _ _ _ _ _ _ _ _ _ Hqr HA) as (out & dbg & Ho & Hdbg & Hi).
  exists out, (/ (two_pi * two_pi) / sqrt 5). split; [exact Ho|]. split; [apply out_truth|].
  destruct (Hi 0%nat 1%Z out_data eq_refl Hd) as (pr & HK & _ & _ & HT). specialize (HT eq_refl eq_refl).
  change (n_mixtures_of out_model) with 1%nat in HK, HT. change (length (latent_of out_model)) with 1%nat in HK.
  change (length (equations out_model 2)) with 4%nat in HT.
  pose proof (fun k t v E => HK k t v 0%nat E Nat.lt_0_1) as HK'. cbv zeta in HK'.
  destruct (HK' 0%nat 0%nat "y"%string eq_refl) as (_ & (c0 & P0 & A0 & B0) & _ & _).
  destruct (HK' 1%nat 0%nat "q_cog"%string eq_refl) as (_ & (c1 & P1 & A1 & B1) & _ & _).
  destruct (HK' 2%nat 1%nat "y"%string eq_refl) as (_ & (c2 & P2 & A2 & B2) & _ & _).
  destruct (HK' 3%nat 1%nat "q_cog"%string eq_refl) as (_ & (c3 & P3 & A3 & B3) & _ & _).
  clear HK HK' Hi.
  rewrite out_equations in A0, B0, A1, B1, A2, B2, A3, B3.
  cbn [firstn] in A0, B0, A1, B1, A2, B2, A3, B3.
  assert (M1 : measurements_among out_model [(0%nat, "y")]%string = [(0%nat, "y")]%string) by reflexivity.
  assert (M2 : measurements_among out_model [(0%nat, "y"); (0%nat, "q_cog")]%string = [(0%nat, "y")]%string) by reflexivity.
  assert (M3 : measurements_among out_model [(0%nat, "y"); (0%nat, "q_cog"); (1%nat, "y")]%string
               = [(0%nat, "y"); (1%nat, "y")]%string) by reflexivity.
  change (measurements_among out_model []) with (@nil (nat * string)) in A0, B0.
  rewrite M1 in A1, B1. rewrite M2 in A2, B2. rewrite M3 in A3, B3.
  apply out_drop in B0; [|auto]. apply out_drop in B3; [|auto].
  pose proof (out_unique _ _ _ _ _ _ A0 B0) as E0. pose proof (out_unique _ _ _ _ _ _ A3 B3) as E3.
  destruct (out_prior nan) as [Q2 Q1].
  pose proof (out_unique _ _ _ _ _ _ A1 Q1) as E1. pose proof (out_unique _ _ _ _ _ _ A2 Q2) as E2. subst c1 c2.
  pose proof (out_unique _ _ _ _ _ _ B1 (out_outcome nan)) as E1. pose proof (out_unique _ _ _ _ _ _ B2 (out_later nan)) as E2.
  assert (R0 : pr 0%nat 0%nat = 1) by nra. assert (R3 : pr 3%nat 0%nat = 1) by nra.
  rewrite HT. cbn [rsum rprod]. rewrite R0, R3.
  assert (W : out_val (CMixWeights, O, mixture_name 0, "-"%string) = 1) by out_val_tac. rewrite W.
  replace (pr 1%nat 0%nat) with (/ two_pi / sqrt 2) by lra. replace (pr 2%nat 0%nat) with (/ two_pi / sqrt 3) by lra.
  pose proof two_pi_pos as Ht.
  assert (S2 : 0 < sqrt 2) by (apply sqrt_lt_R0; lra). assert (S3 : 0 < sqrt 3) by (apply sqrt_lt_R0; lra).
  assert (S5 : 0 < sqrt 5) by (apply sqrt_lt_R0; lra).
  assert (S6 : sqrt 5 < sqrt 2 * sqrt 3) by (rewrite <- sqrt_mult by lra; apply sqrt_lt_1; lra).
  replace (0 + 1 * (1 * 1 * (/ two_pi / sqrt 2) * (/ two_pi / sqrt 3) * 1))
    with (/ (two_pi * two_pi) * / (sqrt 2 * sqrt 3)) by (field; lra).
  unfold Rdiv. apply Rmult_lt_compat_l; [apply Rinv_0_lt_compat; nra|]. apply Rinv_lt_contravar; nra.
Qed.
Print Assumptions C107_refuted.
