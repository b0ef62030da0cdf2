(** Lemmas about integrals over latent factors and linear state space models. *)
From Coquelicot Require Import Coquelicot.
Require Import Reals Lra Lia Psatz Arith Bool List.
From Verif Require Import PyBase RSum Kalman SpecKalman KalmanFacts PredictFacts KalmanOrder KalmanSeq SpecGaussian
  GaussianFacts GaussIntegral SpecLikelihood SpecStateSpace PropsKalman.
Import ListNotations.
Open Scope R_scope.

(** ** Integrals *)

Lemma line_integral_ext f g l : (forall v, f v = g v) -> line_integral f l -> line_integral g l.
Proof. intros H. apply is_RInt_gen_ext. apply filter_forall. intros; apply H. Qed.

Lemma line_integral_scal f c l : line_integral f l -> line_integral (fun v => c * f v) (c * l).
Proof. intros H. apply (is_RInt_gen_scal f c l H). Qed.

Lemma line_integral_plus f g k l : line_integral f k -> line_integral g l ->
  line_integral (fun v => f v + g v) (k + l).
Proof. intros H1 H2. apply (is_RInt_gen_plus f g k l H1 H2). Qed.

Lemma line_integral_unique f k l : line_integral f k -> line_integral f l -> k = l.
Proof.
  intros H1 H2.
  pose proof (is_RInt_gen_unique (V := R_CompleteNormedModule) f k H1) as E1.
  pose proof (is_RInt_gen_unique (V := R_CompleteNormedModule) f l H2) as E2. congruence.
Qed.

Lemma integrates_ext es : forall f f' g g', (forall x, f x = f' x) -> (forall x, g x = g' x) ->
  integrates es f g -> integrates es f' g'.
Proof.
  induction es as [|[t a] es IH]; intros f f' g g' Hf Hg H.
  - intros x. rewrite <- Hf, <- Hg. apply H.
  - destruct H as (h & Hh & H). exists h. split.
    + intros x. apply (line_integral_ext (fun v => f (set_entry x t a v))); [intros; apply Hf|apply Hh].
    + now apply (IH h h g g').
Qed.

Lemma integrates_app es es' : forall f g h, integrates es f g -> integrates es' g h -> integrates (es ++ es') f h.
Proof.
  induction es as [|[t a] es IH]; intros f g h H H'.
  - apply (integrates_ext es' g f h h); [intros x; symmetry; apply H|reflexivity|exact H'].
  - destruct H as (k & Hk & H). exists k. split; [exact Hk|]. now apply (IH k g h).
Qed.

Lemma integrates_scal es c : forall f g, integrates es f g ->
  integrates es (fun x => c * f x) (fun x => c * g x).
Proof.
  induction es as [|[t a] es IH]; intros f g H.
  - intros x. now rewrite (H x).
  - destruct H as (h & Hh & H). exists (fun x => c * h x). split; [|now apply IH].
    intros x. now apply line_integral_scal.
Qed.

Lemma integrates_plus es : forall f g f' g', integrates es f g -> integrates es f' g' ->
  integrates es (fun x => f x + f' x) (fun x => g x + g' x).
Proof.
  induction es as [|[t a] es IH]; intros f g f' g' H H'.
  - intros x. now rewrite (H x), (H' x).
  - destruct H as (h & Hh & H). destruct H' as (h' & Hh' & H').
    exists (fun x => h x + h' x). split; [|now apply IH].
    intros x. now apply line_integral_plus.
Qed.

Lemma integrates_zero es : integrates es (fun _ => 0) (fun _ => 0).
Proof.
  induction es as [|[t a] es IH]; [now intros x|]. exists (fun _ => 0). split; [|exact IH].
  intros x. apply (line_integral_ext (fun v => 0 * normal_density 0 1 v)); [intros; ring|].
  assert (H : line_integral (normal_density 0 1) 1) by (apply normal_density_integral; lra).
  apply (line_integral_scal _ 0) in H. now rewrite Rmult_0_l in H.
Qed.

Lemma integrates_sum es n : forall (f g : nat -> path -> R),
  (forall m, (m < n)%nat -> integrates es (f m) (g m)) ->
  integrates es (fun x => rsum n (fun m => f m x)) (fun x => rsum n (fun m => g m x)).
Proof.
  induction n as [|n IH]; intros f g H; [apply integrates_zero|].
  apply (integrates_plus es _ _ (f n) (g n)); [apply IH; intros; apply H; lia|apply H; lia].
Qed.

(** The value of an integral is unique. *)
Lemma integrates_unique es : forall f f' g g', (forall x, f x = f' x) -> integrates es f g -> integrates es f' g' ->
  forall x, g x = g' x.
Proof.
  induction es as [|[t a] es IH]; intros f f' g g' Hf H H' x.
  - rewrite <- (H x), <- (H' x). apply Hf.
  - destruct H as (h & Hh & H). destruct H' as (h' & Hh' & H').
    apply (IH h h'); try assumption. intros y.
    apply (line_integral_unique (fun v => f (set_entry y t a v))); [apply Hh|].
    apply (line_integral_ext (fun v => f' (set_entry y t a v))); [intros; symmetry; apply Hf|apply Hh'].
Qed.

(** ** Integrating out a normal density *)

Lemma solve_ext u e e' k : (forall a, (a < k)%nat -> e a = e' a) -> forall a, solve u e k a = solve u e' k a.
Proof.
  induction k as [|k IH]; intros H a; simpl; [reflexivity|].
  assert (IH' : forall a, solve u e k a = solve u e' k a) by (apply IH; intros; apply H; lia).
  destruct (a =? k)%nat; [|apply IH']. rewrite (H k) by lia. f_equal. f_equal.
  apply rsum_ext. intros c Hc. now rewrite IH'.
Qed.

Lemma mvn_density_local n mean mean' u x x' : veq n mean mean' -> veq n x x' ->
  mvn_density n mean u x = mvn_density n mean' u x'.
Proof.
  intros Hm Hx. unfold mvn_density. apply rprod_ext. intros a Ha. unfold standardized.
  rewrite (solve_ext u _ (fun a => x' a - mean' a)); [reflexivity|].
  intros c Hc. now rewrite Hm, Hx.
Qed.

Lemma mvn_density_S k mean u x : u k k <> 0 ->
  mvn_density (S k) mean u x
  = mvn_density k mean u x
    * normal_density (mean k + rsum k (fun c => u c k * standardized k mean u x c)) (u k k * u k k) (x k).
Proof.
  intros Hu. unfold mvn_density. simpl rprod. f_equal.
  - apply rprod_ext. intros a Ha. unfold standardized. now rewrite (solve_stable u _ k (S k) a) by lia.
  - rewrite normal_density_1, normal_density_var by assumption.
    unfold standardized. cbn [solve]. rewrite Nat.eqb_refl.
    set (s := rsum k (fun c => u c k * solve u (fun a => x a - mean a) k c)).
    replace (- ((x k - mean k - s) / u k k * ((x k - mean k - s) / u k k)) / 2)
      with (- ((x k - (mean k + s)) * (x k - (mean k + s))) / (2 * (u k k * u k k))) by (field; assumption).
    unfold Rdiv. ring.
Qed.

Lemma set_entry_other x t a v s : s <> t -> set_entry x t a v s = x s.
Proof. intros H. unfold set_entry. now rewrite (proj2 (Nat.eqb_neq s t) H). Qed.

Lemma set_entry_at x t a v : set_entry x t a v t a = v.
Proof. unfold set_entry. now rewrite !Nat.eqb_refl. Qed.

Lemma set_entry_keep x t a v b : b <> a -> set_entry x t a v t b = x t b.
Proof. intros H. unfold set_entry. rewrite Nat.eqb_refl. now rewrite (proj2 (Nat.eqb_neq b a) H). Qed.

(** Functions of the path that do not depend on period t. *)
Definition ignores {A} (t : nat) (f : path -> A) : Prop := forall x a v, f (set_entry x t a v) = f x.

Lemma integrates_normal n t (h : path -> R) (mu : path -> vec) u : proper_root n u ->
  ignores t h -> ignores t mu ->
  integrates (period_entries n t) (fun x => h x * mvn_density n (mu x) u (x t)) h.
Proof.
  intros Hu Hh Hmu. induction n as [|k IH].
  - intros x. unfold mvn_density. simpl. ring.
  - unfold period_entries. rewrite seq_S, rev_app_distr. simpl.
    exists (fun x => h x * mvn_density k (mu x) u (x t)). split.
    + intros x.
      assert (Hk : u k k <> 0) by (apply Hu; lia).
      apply (line_integral_ext (fun v => h x * mvn_density k (mu x) u (x t)
        * normal_density (mu x k + rsum k (fun c => u c k * standardized k (mu x) u (x t) c)) (u k k * u k k) v)).
      * intros v. rewrite Hh, Hmu, mvn_density_S by assumption. rewrite set_entry_at.
        assert (E : veq k (set_entry x t k v t) (x t)) by (intros b Hb; apply set_entry_keep; lia).
        rewrite (mvn_density_local k (mu x) (mu x) u (set_entry x t k v t) (x t)) by (intros b Hb; reflexivity || now apply E).
        rewrite Rmult_assoc. f_equal. f_equal. f_equal. f_equal. apply rsum_ext. intros c Hc. f_equal.
        unfold standardized. apply solve_ext. intros a Ha. now rewrite E.
      * assert (I : line_integral (normal_density (mu x k + rsum k (fun c => u c k * standardized k (mu x) u (x t) c)) (u k k * u k k)) 1).
        { exact (normal_density_integral _ _ (Rsqr_pos_lt _ Hk)). }
        apply (line_integral_scal _ (h x * mvn_density k (mu x) u (x t))) in I. now rewrite Rmult_1_r in I.
    + apply IH. split; [intros a b Ha Hb; apply (proj1 Hu); lia|intros a Ha; apply (proj2 Hu); lia].
Qed.

(** ** Following a schedule without anchoring equations *)

Section LinearRun.
  Variable qr : qr_function.
  Hypothesis Hqr : correct_qr qr.
  Variable nan : R.
  Variable tfunc : dict (list R) -> vec -> vec.
  Variables (n_obs nm nl no nc : nat) (kappa : R).
  Variable inp : inputs.
  Variable i : nat.
  Variable am : nat -> mat.
  Variable bm : nat -> vec.
  Hypothesis Hnm : (1 <= nm)%nat.
  Hypothesis Hshape : no = O \/ nm = 1%nat.
  Hypothesis Hkappa : 0 <= kappa.
  Hypothesis Hpos : 0 < INR nl + kappa.

  Let update := update_event qr nan nm nl nc inp.
  Let transition := transition_event qr nan tfunc n_obs nm nl no kappa inp.
  Let runs := run qr nan tfunc n_obs nm nl no nc kappa inp.

  Definition event_density (ev : event) (x : path) : R :=
    match ev with
    | Measure k t => equation_density nan nl nc inp i k t x
    | Anchor _ _ => 1
    | Transition t => shock_density nan tfunc nl inp i t x
    end.

  (** Events from period s on, in order; the last period. *)
  Fixpoint walk (s : nat) (evs : list event) : option nat :=
    match evs with
    | [] => Some s
    | Measure _ t :: evs' => if (t =? s)%nat then walk s evs' else None
    | Anchor _ _ :: _ => None
    | Transition t :: evs' => if (t =? s)%nat then walk (S s) evs' else None
    end.

  Definition good_event (ev : event) : Prop :=
    match ev with
    | Measure k _ => in_sd inp k <> 0
    | Anchor _ _ => False
    | Transition t =>
        (forall v f, (f < nl)%nat ->
           tfunc (in_coeffs inp t) v f = rsum (nl + no) (fun g => am t f g * v g) + bm t f) /\
        (forall f, (f < nl)%nat -> in_scaling inp (t + 1)%nat f <> 0) /\
        (forall f, (f < nl)%nat -> in_shock_sds inp t f <> 0)
    end.

  Definition good_belief (b : belief) : Prop :=
    (forall m, (m < nm)%nat -> proper_root nl (be_chols b i m)) /\
    rsum nm (fun m => exp (be_logw b i m)) = 1.

  Fixpoint follow (evs : list event) (b : belief) : result belief :=
    match evs with
    | [] => Ok b
    | Measure k t :: evs' => follow evs' (fst (update false k t b))
    | Anchor k t :: evs' => follow evs' (fst (update true k t b))
    | Transition t :: evs' => do b' <- transition t b; follow evs' b'
    end.

  Definition belief_density (b : belief) (m : nat) (x : vec) : R :=
    exp (be_logw b i m) * mvn_density nl (be_states b i m) (be_chols b i m) x.

  Lemma weights_after k t b : in_sd inp k <> 0 -> rsum nm (fun m => exp (be_logw b i m)) = 1 ->
    rsum nm (fun m => exp (be_logw (fst (update false k t b)) i m)) = 1.
  Proof.
    intros Hsd Hw.
    exact (C32_normalized qr Hqr nan nm nl nc (in_controls inp t)
      [mk_meas (in_loadings inp k) (in_control_params inp k) (in_sd inp k) (in_values inp k)]
      (mk_fstate (be_states b) (be_chols b) (be_logw b) (fun _ => 0%R)) i Hnm
      ltac:(constructor; [exact Hsd|constructor]) Hw).
  Qed.

  (** One measurement: Bayes' rule. *)
  Lemma measure_step k t b : in_sd inp k <> 0 -> good_belief b ->
    let br := update false k t b in
    good_belief (fst br) /\
    forall m x, (m < nm)%nat ->
      belief_density b m (x t) * event_density (Measure k t) x
      = exp (re_contribution (snd br) i) * belief_density (fst br) m (x t).
  Proof.
    intros Hsd [Hr Hw] br.
    assert (Hw' : rsum nm (fun m => exp (be_logw (fst br) i m)) = 1) by now apply weights_after.
    cbn [event_density]. unfold equation_density.
    destruct (in_values inp k i) as [y|] eqn:Ey.
    - assert (Hiv : forall m, innovation_var nl (cov nl (be_chols b i m)) (in_loadings inp k) (in_sd inp k) <> 0).
      { intros m. apply Rgt_not_eq. now apply innovation_var_pos. }
      assert (U : forall m, veq nl (be_states (fst br) i m)
                  (conditional_mean nl (be_states b i m) (cov nl (be_chols b i m)) (in_loadings inp k) (in_sd inp k)
                     (control_part nan nc (in_controls inp t) (in_control_params inp k) i) y) /\
                meq nl (cov nl (be_chols (fst br) i m))
                  (conditional_cov nl (cov nl (be_chols b i m)) (in_loadings inp k) (in_sd inp k)) /\
                upper_triangular nl (be_chols (fst br) i m)).
      { intros m. destruct (C30_textbook_update qr Hqr nan nm nl nc (be_states b) (be_chols b) (in_loadings inp k)
          (in_control_params inp k) (in_sd inp k) (in_values inp k) (in_controls inp t) (be_logw b) i m y Ey (Hiv m))
          as (A & B & C & _). auto. }
      split.
      + split; [|exact Hw']. intros m Hm. destruct (U m) as (_ & B & C).
        exact (bayes_proper nl _ _ _ _ (Hr m Hm) C Hsd B).
      + intros m x Hm. destruct (U m) as (A & B & C).
        pose proof (mvn_bayes nl (be_states b i m) (be_chols b i m) (in_loadings inp k) (in_sd inp k)
          (control_part nan nc (in_controls inp t) (in_control_params inp k) i) y _ _ (Hr m Hm) C Hsd B A (x t)) as E.
        unfold belief_density. rewrite Rmult_assoc.
        change (dot nc (fun c => to_number nan (in_controls inp t i c)) (in_control_params inp k))
          with (control_part nan nc (in_controls inp t) (in_control_params inp k) i).
        rewrite E.
        pose proof (C32_bayes qr Hqr nan nm nl nc (be_states b) (be_chols b) (in_loadings inp k)
          (in_control_params inp k) (in_sd inp k) (in_values inp k) (in_controls inp t) (be_logw b) i y Hnm Hsd Ey Hw m Hm) as W.
        pose proof (C33_contribution qr Hqr nan nm nl nc (be_states b) (be_chols b) (in_loadings inp k)
          (in_control_params inp k) (in_sd inp k) (in_values inp k) (in_controls inp t) (be_logw b) i Hnm Hsd Hw) as L.
        rewrite Ey in L.
        assert (P : 0 < mixture_density nm nl (be_states b i) (be_chols b i) (fun m => exp (be_logw b i m)) (in_loadings inp k)
                      (in_sd inp k) (control_part nan nc (in_controls inp t) (in_control_params inp k) i) y).
        { apply rsum_pos; [assumption|]. intros m' Hm'. apply Rmult_lt_0_compat; [apply exp_pos|].
          apply normal_density_pos. now apply innovation_var_pos. }
        change (exp (be_logw (fst br) i m)) with (exp (up_logw (kalman_update qr nan nm nl nc (be_states b) (be_chols b)
          (in_loadings inp k) (in_control_params inp k) (in_sd inp k) (in_values inp k) (in_controls inp t) (be_logw b)) i m)).
        change (re_contribution (snd br) i) with (up_loglikes (kalman_update qr nan nm nl nc (be_states b) (be_chols b)
          (in_loadings inp k) (in_control_params inp k) (in_sd inp k) (in_values inp k) (in_controls inp t) (be_logw b)) i).
        rewrite W, L, exp_ln by exact P. field. lra.
    - destruct (C31_missing_ignored qr nan nm nl nc (be_states b) (be_chols b) (in_loadings inp k)
          (in_control_params inp k) (in_sd inp k) (in_values inp k) (in_controls inp t) (be_logw b) i Ey)
          as (A & B & C & D & _).
      split; [split; [|exact Hw']|].
      + intros m Hm. unfold br, update, update_event. cbn [fst be_chols]. rewrite B. now apply Hr.
      + intros m x Hm. unfold br, update, update_event, belief_density.
        cbn [fst snd be_chols be_states be_logw re_contribution]. rewrite A, B, C, D, exp_0. ring.
  Qed.

  (** One transition: the density of both periods, factored the other way round. *)
  Lemma transition_step t b b' : good_event (Transition t) -> good_belief b -> transition t b = Ok b' ->
    good_belief b' /\
    forall m, (m < nm)%nat -> exists back w, proper_root nl w /\
      forall x, belief_density b m (x t) * event_density (Transition t) x
                = belief_density b' m (x (S t)) * mvn_density nl (back (x (S t))) w (x t).
  Proof.
    intros (Hf & Hsc & Hsd) [Hr Hw] E. unfold transition, transition_event in E.
    set (scale := fun r => in_scaling inp (t + r)%nat) in *. set (const := fun r => in_constants inp (t + r)%nat) in *.
    set (obs := fun i f => to_number nan (in_observed inp t i f)) in *.
    destruct (C37_exact_for_affine qr Hqr n_obs nm nl no kappa (be_states b) (be_chols b) (tfunc (in_coeffs inp t))
      (am t) (bm t) (in_shock_sds inp t) scale const obs Hpos Hshape Hf Hsc) as (pst & pch & Ep & Hp).
    rewrite Ep in E. injection E as <-.
    set (A := fun f g => effective (am t) scale f g).
    set (c := fun f => expected_next nan tfunc nl inp i t (fun _ => 0) f).
    assert (Hnext : forall x f, (f < nl)%nat -> expected_next nan tfunc nl inp i t x f = affine_image nl no (am t) (bm t) scale const x (obs i) f).
    { intros x f Hlt. unfold expected_next, anchored_transition. fold scale const. rewrite Hf by assumption.
      unfold affine_image. f_equal. f_equal. f_equal. rewrite rsum_app. f_equal; apply rsum_ext.
      - intros g Hg. unfold all_factors. now rewrite (proj2 (Nat.ltb_lt g nl) Hg).
      - intros o Ho. unfold all_factors. rewrite (proj2 (Nat.ltb_ge (nl + o) nl)) by lia.
        now replace (nl + o - nl)%nat with o by lia. }
    assert (Haff : forall x f, (f < nl)%nat -> expected_next nan tfunc nl inp i t x f = dot nl x (A f) + c f).
    { intros x f Hlt. unfold c. rewrite !Hnext by assumption. unfold affine_image, A, effective, dot.
      rewrite (rsum_ext nl (fun g => am t f g * (x g * scale O g + const O g))
        (fun g => am t f g * (0 * scale O g + const O g) + x g * (am t f g * scale O g / scale 1%nat f) * scale 1%nat f)).
      - rewrite rsum_plus, rsum_scal_r. field. now apply Hsc.
      - intros g Hg. field. now apply Hsc. }
    assert (Hcov : forall m, (m < nm)%nat -> forall a g, (a < nl)%nat -> (g < nl)%nat ->
      cov nl (pch i m) a g = bil nl (cov nl (be_chols b i m)) (A a) (A g)
        + (if Nat.eq_dec a g then in_shock_sds inp t a * in_shock_sds inp t a else 0)).
    { intros m Hm a g Ha Hg. destruct (Hp i m Hm) as (_ & _ & C). rewrite (C Hkappa a g Ha Hg). f_equal.
      unfold bil, mat_vec. apply rsum_ext. intros e He. rewrite <- rsum_scal_l. apply rsum_ext. intros d Hd.
      unfold A. ring. }
    assert (T : forall m, (m < nm)%nat -> exists back w, proper_root nl w /\ proper_root nl (pch i m) /\
      forall x x',
        mvn_density nl (be_states b i m) (be_chols b i m) x
        * rprod nl (fun a => normal_density (dot nl x (A a) + c a) (in_shock_sds inp t a * in_shock_sds inp t a) (x' a))
        = mvn_density nl (fun a => dot nl (be_states b i m) (A a) + c a) (pch i m) x' * mvn_density nl (back x') w x).
    { intros m Hm. destruct (Hp i m Hm) as (_ & Up & _).
      exact (mvn_transition nl (be_states b i m) (be_chols b i m) A c (in_shock_sds inp t) (pch i m) (Hr m Hm) Up Hsd (Hcov m Hm)). }
    split.
    - split; [|exact Hw]. intros m Hm. cbn [be_chols fst snd]. now destruct (T m Hm) as (_ & _ & _ & Hpr & _).
    - intros m Hm. destruct (T m Hm) as (back & w & Hpw & _ & HT). exists back, w. split; [exact Hpw|].
      intros x. unfold belief_density. cbn [be_chols be_states be_logw fst snd event_density]. unfold shock_density.
      rewrite (rprod_ext nl _ (fun a => normal_density (dot nl (x t) (A a) + c a)
        (in_shock_sds inp t a * in_shock_sds inp t a) (x (S t) a))).
      2:{ intros a Ha. now rewrite Haff. }
      rewrite Rmult_assoc, HT, <- Rmult_assoc. f_equal. f_equal. apply mvn_density_local; [|intros a Ha; reflexivity].
      intros a Ha. destruct (Hp i m Hm) as (M & _). rewrite (M a Ha), <- Hnext, Haff by assumption. reflexivity.
  Qed.

  Definition total (recs : list record) : R := sum_list (map (fun r => re_contribution r i) recs).
  Definition entries_between (s e : nat) : list (nat * nat) := flat_map (period_entries nl) (seq s (e - s)).

  Lemma walk_le evs : forall s e, walk s evs = Some e -> (s <= e)%nat.
  Proof.
    induction evs as [|[k t|k t|t] evs IH]; intros s e H; simpl in H.
    - injection H as <-. lia.
    - destruct (t =? s)%nat; [now apply IH|discriminate].
    - discriminate.
    - destruct (t =? s)%nat; [|discriminate]. apply IH in H. lia.
  Qed.

  Lemma walk_density evs : forall s e b recs, walk s evs = Some e -> Forall good_event evs -> good_belief b ->
    runs evs b = Ok recs ->
    exists b', follow evs b = Ok b' /\ good_belief b' /\
    forall m, (m < nm)%nat -> exists rest : path -> R,
      (forall x, belief_density b m (x s) * prod_list (map (fun ev => event_density ev x) evs)
                 = exp (total recs) * belief_density b' m (x e) * rest x) /\
      (forall t, (t < s)%nat -> ignores t rest) /\
      (forall h, (forall t, (s <= t)%nat -> (t < e)%nat -> ignores t h) ->
         integrates (entries_between s e) (fun x => h x * rest x) h).
  Proof.
    induction evs as [|[k t|k t|t] evs IH]; intros s e b recs Hwalk Hgood Hb Hrun; cbn [walk] in Hwalk.
    - injection Hwalk as <-. cbn in Hrun. injection Hrun as <-. exists b. split; [reflexivity|]. split; [assumption|].
      intros m Hm. exists (fun _ => 1). split; [|split].
      + intros x. unfold total. cbn. rewrite exp_0. ring.
      + intros t _ x a v. reflexivity.
      + intros h _. unfold entries_between. rewrite Nat.sub_diag. intros x. ring.
    - destruct (Nat.eqb_spec t s) as [->|]; [|discriminate]. inversion_clear Hgood as [|? ? G Gs].
      unfold runs in Hrun. cbn [run] in Hrun. fold update runs in Hrun.
      destruct (runs evs (fst (update false k s b))) as [recs'|] eqn:Er; cbn [rbind] in Hrun; [|discriminate]. injection Hrun as <-.
      destruct (measure_step k s b G Hb) as [Hb1 Hstep].
      destruct (IH s e _ _ Hwalk Gs Hb1 Er) as (b' & Hf & Hb' & H). exists b'. split; [exact Hf|]. split; [exact Hb'|].
      intros m Hm. destruct (H m Hm) as (rest & H1 & H2 & H3). exists rest. split; [|split; assumption].
      intros x. pose proof (Hstep m x Hm) as HS. pose proof (H1 x) as HX.
      change (prod_list (map (fun ev => event_density ev x) (Measure k s :: evs)))
        with (event_density (Measure k s) x * prod_list (map (fun ev => event_density ev x) evs)).
      match goal with |- _ = exp (total ?l) * _ * _ =>
        assert (T : total l = re_contribution (snd (update false k s b)) i + total recs') by reflexivity; rewrite T end.
      rewrite exp_plus, <- Rmult_assoc, HS, Rmult_assoc, HX. ring.
    - discriminate.
    - destruct (Nat.eqb_spec t s) as [->|]; [|discriminate]. inversion_clear Hgood as [|? ? G Gs].
      unfold runs in Hrun. cbn [run] in Hrun. fold transition in Hrun.
      destruct (transition s b) as [b1|] eqn:Et; cbn [rbind] in Hrun; [|discriminate]. fold runs in Hrun.
      destruct (transition_step s b b1 G Hb Et) as [Hb1 Hstep].
      destruct (IH (S s) e _ _ Hwalk Gs Hb1 Hrun) as (b' & Hf & Hb' & H). exists b'. split; [cbn [follow]; rewrite Et; exact Hf|].
      split; [exact Hb'|]. intros m Hm. destruct (H m Hm) as (rest & H1 & H2 & H3).
      destruct (Hstep m Hm) as (back & w & Hpw & HT).
      exists (fun x => rest x * mvn_density nl (back (x (S s))) w (x s)). split; [|split].
      + intros x. cbn [map prod_list fold_right]. fold (prod_list (map (fun ev => event_density ev x) evs)).
        rewrite <- Rmult_assoc, HT.
        transitivity (belief_density b1 m (x (S s)) * prod_list (map (fun ev => event_density ev x) evs)
                      * mvn_density nl (back (x (S s))) w (x s)); [ring|]. rewrite H1. ring.
      + intros t Ht x a v. rewrite (H2 t ltac:(lia)). now rewrite !set_entry_other by lia.
      + intros h Hh. pose proof (walk_le _ _ _ Hwalk) as Hle.
        unfold entries_between. replace (e - s)%nat with (S (e - S s)) by lia. cbn [seq flat_map].
        apply (integrates_app _ _ _ (fun x => h x * rest x)).
        * apply (integrates_ext _ (fun x => h x * rest x * mvn_density nl (back (x (S s))) w (x s)) _ (fun x => h x * rest x));
            [intros x; ring|reflexivity|].
          apply (integrates_normal nl s (fun x => h x * rest x) (fun x => back (x (S s)))); [assumption| |].
          -- intros x a v. rewrite (Hh s), (H2 s) by lia. reflexivity.
          -- intros x a v. now rewrite set_entry_other by lia.
        * apply H3. intros t H4 H5. apply Hh; lia.
  Qed.

  Lemma belief_ignores b m e t : t <> e -> ignores t (fun x => belief_density b m (x e)).
  Proof. intros H x a v. now rewrite set_entry_other by congruence. Qed.

  (** All earlier periods integrated out. *)
  Lemma walk_integral evs e b recs : walk 0 evs = Some e -> Forall good_event evs -> good_belief b ->
    runs evs b = Ok recs ->
    exists b', follow evs b = Ok b' /\ good_belief b' /\
    integrates (entries_before nl e)
      (fun x => rsum nm (fun m => belief_density b m (x O)) * prod_list (map (fun ev => event_density ev x) evs))
      (fun x => exp (total recs) * rsum nm (fun m => belief_density b' m (x e))).
  Proof.
    intros Hw Hg Hb Hr. destruct (walk_density evs 0 e b recs Hw Hg Hb Hr) as (b' & Hf & Hb' & H).
    exists b'. split; [exact Hf|]. split; [exact Hb'|].
    apply (integrates_ext _
      (fun x => rsum nm (fun m => belief_density b m (x O) * prod_list (map (fun ev => event_density ev x) evs))) _
      (fun x => rsum nm (fun m => exp (total recs) * belief_density b' m (x e)))).
    - intros x. now rewrite rsum_scal_r.
    - intros x. now rewrite rsum_scal_l.
    - apply integrates_sum. intros m Hm. destruct (H m Hm) as (rest & H1 & _ & H3).
      replace (entries_before nl e) with (entries_between 0 e)
        by (unfold entries_before, entries_between; now rewrite Nat.sub_0_r).
      apply (integrates_ext _ (fun x => exp (total recs) * belief_density b' m (x e) * rest x) _
               (fun x => exp (total recs) * belief_density b' m (x e)));
        [intros x; symmetry; apply H1|reflexivity|].
      apply H3. intros t _ Ht x a v. f_equal. apply (belief_ignores b' m e t); lia.
  Qed.

  (** Everything integrated out. *)
  Lemma walk_likelihood evs e b recs : walk 0 evs = Some e -> Forall good_event evs -> good_belief b ->
    runs evs b = Ok recs ->
    integrates (entries_before nl (S e))
      (fun x => rsum nm (fun m => belief_density b m (x O)) * prod_list (map (fun ev => event_density ev x) evs))
      (fun _ => exp (total recs)).
  Proof.
    intros Hw Hg Hb Hr. destruct (walk_integral evs e b recs Hw Hg Hb Hr) as (b' & _ & [Hp Hsum] & H).
    unfold entries_before in *. rewrite seq_S, flat_map_app. refine (integrates_app _ _ _ _ _ H _).
    cbn [flat_map Nat.add]. rewrite app_nil_r.
    apply (integrates_ext _ (fun x => rsum nm (fun m => exp (total recs) * belief_density b' m (x e))) _
      (fun x => rsum nm (fun m => exp (total recs) * exp (be_logw b' i m)))).
    - intros x. now rewrite rsum_scal_l.
    - intros x. rewrite rsum_scal_l, Hsum. ring.
    - apply (integrates_sum _ nm (fun m x => exp (total recs) * belief_density b' m (x e)) (fun m _ => exp (total recs) * exp (be_logw b' i m))).
      intros m Hm. unfold belief_density.
      apply (integrates_ext _ (fun x => (fun _ => exp (total recs) * exp (be_logw b' i m)) x * mvn_density nl ((fun _ => be_states b' i m) x) (be_chols b' i m) (x e)) _
        (fun _ => exp (total recs) * exp (be_logw b' i m))); [intros x; ring|reflexivity|].
      apply (integrates_normal nl e); [now apply Hp| |]; intros x a v; reflexivity.
  Qed.
End LinearRun.
