(** The filter as a function of the values of the measurements of one individual: the
    product of the densities it reports integrates to one. *)
From Coquelicot Require Import Coquelicot.
Require Import Reals Qreals String Arith ZArith Bool List Lia Lra.
From Verif Require Import PyBase ListFacts ModelSpec ProcessModel SpecModel ParseParams ProcessData RSum Kalman SpecKalman
  KalmanFacts PropsKalman Likelihood SpecLikelihood ScheduleFacts LikelihoodFacts LikelihoodLocal SpecGaussian GaussianFacts GaussIntegral
  SpecStateSpace StateSpaceFacts.
Import ListNotations.
Open Scope R_scope.

(** ** Integrals *)

Lemma line_integral_rsum n (f : nat -> R -> R) (l : nat -> R) : (forall m, (m < n)%nat -> line_integral (f m) (l m)) ->
  line_integral (fun v => rsum n (fun m => f m v)) (rsum n l).
Proof.
  induction n as [|n IH]; intros H; cbn [rsum].
  - apply (line_integral_ext (fun v => 0 * normal_density 0 1 v)); [intros; ring|].
    pose proof (line_integral_scal _ 0 1 (normal_density_integral 0 1 Rlt_0_1)) as A. rewrite Rmult_0_l in A. exact A.
  - apply line_integral_plus; [apply IH; intros; apply H; lia|apply H; lia].
Qed.

(** A factor that does not depend on the variables of integration. *)
Lemma integrates_factor es : forall (h f g : path -> R),
  (forall t a x v, In (t, a) es -> h (set_entry x t a v) = h x) -> integrates es f g ->
  integrates es (fun x => h x * f x) (fun x => h x * g x).
Proof.
  induction es as [|[t a] es IH]; intros h f g Hh H; [intros x; now rewrite H|].
  destruct H as (f' & A & B). exists (fun x => h x * f' x). split.
  - intros x. apply (line_integral_ext (fun v => h x * f (set_entry x t a v))).
    + intros v. rewrite Hh; [reflexivity|now left].
    + apply line_integral_scal, A.
  - apply IH; [|exact B]. intros. apply Hh. now right.
Qed.

(** Two paths with the same values of the first [k] equations. *)
Definition agree (k : nat) (x y : path) : Prop := forall j, (j < k)%nat -> x j O = y j O.

Lemma agree_set k x j v : (k <= j)%nat -> agree k (set_entry x j O v) x.
Proof.
  intros Hj l Hl. unfold set_entry. destruct (Nat.eqb_spec l j); [lia|reflexivity].
Qed.

Definition observed_entries (obs : nat -> bool) (from n : nat) : list (nat * nat) :=
  map (fun k => (k, O)) (rev (filter obs (seq from n))).

Lemma observed_entries_S obs from n :
  observed_entries obs from (S n) = observed_entries obs (S from) n ++ (if obs from then [(from, O)] else []).
Proof.
  unfold observed_entries. cbn [seq filter]. destruct (obs from).
  - cbn [rev]. now rewrite map_app.
  - now rewrite app_nil_r.
Qed.

Section Density.
  Variable qr : qr_function.
  Hypothesis Hqr : correct_qr qr.
  Hypothesis Hloc : local_qr qr.
  Variable nan : R.
  Variable tfunc : dict (list R) -> vec -> vec.
  Variables (n_obs nm nl no nc : nat) (kappa : R).
  Hypothesis Htf : forall c, local_transition nl (nl + no) (tfunc c).
  Hypothesis Hnm : (1 <= nm)%nat.
  Hypothesis Hobs1 : (1 <= n_obs)%nat.
  Variable inp : path -> inputs.
  Variable i : nat.
  Variable obs : nat -> bool.
  Hypothesis Hpar : forall x y, in_loadings (inp x) = in_loadings (inp y) /\ in_control_params (inp x) = in_control_params (inp y) /\
    in_sd (inp x) = in_sd (inp y) /\ in_coeffs (inp x) = in_coeffs (inp y) /\ in_shock_sds (inp x) = in_shock_sds (inp y) /\
    in_scaling (inp x) = in_scaling (inp y) /\ in_constants (inp x) = in_constants (inp y).
  Hypothesis Hval : forall x k, in_values (inp x) k i = if obs k then Some (x k O) else None.
  Hypothesis Hctl : forall x y t c, (c < nc)%nat -> in_controls (inp x) t i c = in_controls (inp y) t i c.
  Hypothesis Hfac : forall x y t o, (o < no)%nat -> in_observed (inp x) t i o = in_observed (inp y) t i o.

  Let update x := update_event qr nan nm nl nc (inp x).
  Let transition x := transition_event qr nan tfunc n_obs nm nl no kappa (inp x).
  Let runs x := run qr nan tfunc n_obs nm nl no nc kappa (inp x).
  Let same := same_belief nm nl i i.

  (** Updates with the same value. *)
  Lemma update_agree a k t x y b b' : (obs k = true -> x k O = y k O) -> same b b' ->
    same (fst (update x a k t b)) (fst (update y a k t b')) /\
    re_contribution (snd (update x a k t b)) i = re_contribution (snd (update y a k t b')) i.
  Proof.
    intros Hk Hb.
    set (inp' := mk_inputs (in_loadings (inp y)) (in_control_params (inp y)) (in_sd (inp y))
      (fun k' => if (k' =? k)%nat then in_values (inp y) k else in_values (inp x) k')
      (in_controls (inp y)) (in_observed (inp y)) (in_coeffs (inp y)) (in_shock_sds (inp y)) (in_scaling (inp y))
      (in_constants (inp y))).
    assert (E : update y a k t b' = update_event qr nan nm nl nc inp' a k t b').
    { unfold update, update_event, inp'. cbn [in_loadings in_control_params in_sd in_values in_controls]. now rewrite Nat.eqb_refl. }
    rewrite E.
    destruct (update_same qr Hloc nan nm nl nc Hnm (inp x) inp' i i) with (a := a) (k := k) (t := t) (b := b) (b' := b') as [A B].
    - unfold inp'. cbn [in_loadings in_control_params in_sd in_coeffs in_shock_sds in_scaling in_constants]. apply Hpar.
    - intros k'. unfold inp'. cbn [in_values]. destruct (Nat.eqb_spec k' k) as [->|Hne]; [|reflexivity].
      rewrite !Hval. destruct (obs k); [|reflexivity]. f_equal. now apply Hk.
    - intros s c Hc. apply Hctl, Hc.
    - exact Hb.
    - split; [exact A|]. apply B.
  Qed.

  Lemma transition_agree t x y b b' r r' : same b b' -> transition x t b = Ok r -> transition y t b' = Ok r' -> same r r'.
  Proof.
    intros Hb E E'.
    set (inp' := mk_inputs (in_loadings (inp y)) (in_control_params (inp y)) (in_sd (inp y)) (in_values (inp x))
      (in_controls (inp y)) (in_observed (inp y)) (in_coeffs (inp y)) (in_shock_sds (inp y)) (in_scaling (inp y))
      (in_constants (inp y))).
    assert (E2 : transition_event qr nan tfunc n_obs nm nl no kappa inp' t b' = Ok r') by exact E'.
    exact (transition_same qr Hloc nan tfunc nm nl no kappa Htf n_obs n_obs (inp x) inp' i i Hobs1 Hobs1
             (Hpar x y) (Hfac x y) t b b' r r' Hb E E2).
  Qed.

  (** The contribution of equation k as a function of its value. *)
  Lemma contribution_integral a k t x b : obs k = true -> in_sd (inp x) k <> 0 ->
    (forall y, agree k y x -> same (b y) (b x)) ->
    rsum nm (fun m => exp (be_logw (b x) i m)) = 1 ->
    line_integral (fun v => exp (re_contribution (snd (update (set_entry x k O v) a k t (b (set_entry x k O v)))) i)) 1.
  Proof.
    intros Hk Hsd Hb Hw. rewrite <- Hw.
    set (offset := control_part nan nc (in_controls (inp x) t) (in_control_params (inp x) k) i).
    set (var := fun m => innovation_var nl (cov nl (be_chols (b x) i m)) (in_loadings (inp x) k) (in_sd (inp x) k)).
    assert (Hvar : forall m, 0 < var m) by (intros m; now apply innovation_var_pos).
    apply (line_integral_ext (fun v => rsum nm (fun m => exp (be_logw (b x) i m)
      * normal_density (dot nl (be_states (b x) i m) (in_loadings (inp x) k) + offset) (var m) v))).
    - intros v. set (y := set_entry x k O v).
      assert (Ey : in_values (inp y) k i = Some v).
      { rewrite Hval, Hk. unfold y, set_entry. now rewrite !Nat.eqb_refl. }
      destruct (update_agree a k t y y (b y) (b x)) as [_ ->]; [reflexivity|apply Hb, agree_set; lia|].
      destruct (Hpar x y) as (P1 & P2 & P3 & _).
      unfold update, update_event. cbn [snd re_contribution].
      rewrite (C33_contribution qr Hqr nan nm nl nc (be_states (b x)) (be_chols (b x)) (in_loadings (inp y) k)
        (in_control_params (inp y) k) (in_sd (inp y) k) (in_values (inp y) k) (in_controls (inp y) t) (be_logw (b x)) i Hnm);
        [|rewrite <- P3; exact Hsd|exact Hw].
      rewrite Ey.
      assert (E : mixture_density nm nl (be_states (b x) i) (be_chols (b x) i) (fun m => exp (be_logw (b x) i m)) (in_loadings (inp y) k)
                    (in_sd (inp y) k) (control_part nan nc (in_controls (inp y) t) (in_control_params (inp y) k) i) v
                  = rsum nm (fun m => exp (be_logw (b x) i m)
                      * normal_density (dot nl (be_states (b x) i m) (in_loadings (inp x) k) + offset) (var m) v)).
      { unfold mixture_density. apply rsum_ext. intros m Hm. unfold measurement_density, var. rewrite <- P1, <- P3.
        do 2 f_equal. f_equal. unfold offset, control_part. rewrite <- P2. apply rsum_ext. intros c Hc.
        now rewrite (Hctl y x t c Hc). }
      rewrite E. rewrite exp_ln; [reflexivity|]. apply rsum_pos; [exact Hnm|]. intros m Hm.
      apply Rmult_lt_0_compat; [apply exp_pos|]. apply normal_density_pos, Hvar.
    - apply line_integral_rsum. intros m Hm.
      pose proof (line_integral_scal _ (exp (be_logw (b x) i m)) 1
        (normal_density_integral (dot nl (be_states (b x) i m) (in_loadings (inp x) k) + offset) (var m) (Hvar m))) as A.
      rewrite Rmult_1_r in A. exact A.
  Qed.

  Lemma missing_contribution a k t x b : obs k = false -> re_contribution (snd (update x a k t b)) i = 0.
  Proof.
    intros Hk. unfold update, update_event. cbn [snd re_contribution].
    apply (C31_missing_ignored qr nan nm nl nc (be_states b) (be_chols b) (in_loadings (inp x) k)
          (in_control_params (inp x) k) (in_sd (inp x) k) (in_values (inp x) k) (in_controls (inp x) t) (be_logw b) i).
    rewrite Hval, Hk. reflexivity.
  Qed.

  Lemma weights_update a k t x b : in_sd (inp x) k <> 0 -> rsum nm (fun m => exp (be_logw b i m)) = 1 ->
    rsum nm (fun m => exp (be_logw (fst (update x a k t b)) i m)) = 1.
  Proof. intros Hsd Hw. exact (weights_after qr Hqr nan nm nl nc (inp x) i Hnm k t b Hsd Hw). Qed.

  (** The sum of the contributions of individual i. *)
  Definition log_density (recs : list record) : R := sum_list (map (fun r => re_contribution r i) recs).

  Lemma run_integral l : forall k (b : path -> belief) (recs : path -> list record),
    (forall x j, (j < length l)%nat -> in_sd (inp x) (k + j) <> 0) ->
    (forall x y, agree k x y -> same (b x) (b y)) ->
    (forall x, rsum nm (fun m => exp (be_logw (b x) i m)) = 1) ->
    (forall x, runs x (code_events k l) (b x) = Ok (recs x)) ->
    integrates (observed_entries obs k (length l)) (fun x => exp (log_density (recs x))) (fun _ => 1).
  Proof.
    induction l as [|[t an] l IH]; intros k b recs Hsd Hb Hw Hrun.
    - intros x. specialize (Hrun x). cbn [code_events] in Hrun. unfold runs in Hrun. cbn [run] in Hrun. injection Hrun as <-. cbn. apply exp_0.
    - set (b1 := fun x => fst (update x an k t (b x))).
      set (c := fun x => re_contribution (snd (update x an k t (b x))) i).
      set (moves := match l with tb' :: _ => (fst tb' =? S t)%nat | [] => false end).
      assert (Hev : code_events k ((t, an) :: l) = ev k (t, an) :: (if moves then [Transition t] else []) ++ code_events (S k) l).
      { cbn [code_events fst]. unfold moves. destruct l as [|tb l']; [reflexivity|]. reflexivity. }
      assert (Hstep : forall x, exists b2 recs', (if moves then transition x t (b1 x) = Ok b2 else b2 = b1 x) /\
                runs x (code_events (S k) l) b2 = Ok recs' /\ exp (log_density (recs x)) = exp (c x) * exp (log_density recs')).
      { intros x. specialize (Hrun x). rewrite Hev in Hrun. unfold runs in Hrun.
        assert (G : run qr nan tfunc n_obs nm nl no nc kappa (inp x) ((if moves then [Transition t] else []) ++ code_events (S k) l) (b1 x)
                    = Ok (tl (recs x)) /\ recs x = snd (update x an k t (b x)) :: tl (recs x)).
        { unfold ev in Hrun. cbn [fst snd] in Hrun. unfold b1, update. destruct an; cbn [run] in Hrun; apply rbind_ok in Hrun as (r & Er & E2);
            injection E2; intros <-; cbn [tl]; split; try reflexivity; exact Er. }
        destruct G as [G1 G2].
        assert (G3 : exp (log_density (recs x)) = exp (c x) * exp (log_density (tl (recs x)))).
        { rewrite G2 at 1. unfold log_density. cbn [map sum_list fold_right]. rewrite exp_plus. reflexivity. }
        destruct moves.
        - cbn [app run] in G1. apply rbind_ok in G1 as (b2 & Eb & G1). exists b2, (tl (recs x)). split; [exact Eb|]. split; [exact G1|exact G3].
        - exists (b1 x), (tl (recs x)). split; [reflexivity|]. split; [exact G1|exact G3]. }
      set (b2 := fun x => if moves then match transition x t (b1 x) with Ok b2 => b2 | Err _ => b1 x end else b1 x).
      set (recs' := fun x => match runs x (code_events (S k) l) (b2 x) with Ok r => r | Err _ => [] end).
      assert (Hb2 : forall x, (moves = true -> transition x t (b1 x) = Ok (b2 x)) /\ (moves = false -> b2 x = b1 x) /\
                runs x (code_events (S k) l) (b2 x) = Ok (recs' x) /\ exp (log_density (recs x)) = exp (c x) * exp (log_density (recs' x))).
      { intros x. destruct (Hstep x) as (b' & r' & E1 & E2 & E3). unfold b2, recs'.
        destruct moves.
        - unfold b2. rewrite E1, E2. repeat split; [discriminate|exact E3].
        - subst b'. unfold b2. rewrite E2. repeat split; [discriminate|exact E3]. }
      assert (Hsd0 : forall x, in_sd (inp x) k <> 0).
      { intros x. specialize (Hsd x 0%nat). rewrite Nat.add_0_r in Hsd. apply Hsd. cbn. lia. }
      assert (Hb1 : forall x y, agree (S k) x y -> same (b1 x) (b1 y) /\ c x = c y).
      { intros x y Hxy. apply update_agree; [intros _; apply Hxy; lia|]. apply Hb. intros j Hj. apply Hxy. lia. }
      assert (I : integrates (observed_entries obs (S k) (length l)) (fun x => exp (log_density (recs' x))) (fun _ => 1)).
      { apply (IH (S k) b2 recs').
        - intros x j Hj. specialize (Hsd x (S j)). rewrite <- Nat.add_succ_comm in Hsd. apply Hsd. cbn. lia.
        - intros x y Hxy. destruct (Hb1 x y Hxy) as [S1 _]. destruct (Hb2 x) as (T & F & _). destruct (Hb2 y) as (T' & F' & _).
          destruct moves.
          + exact (transition_agree t x y (b1 x) (b1 y) _ _ S1 (T eq_refl) (T' eq_refl)).
          + rewrite (F eq_refl), (F' eq_refl). exact S1.
        - intros x. destruct (Hb2 x) as (T & F & _).
          assert (W : rsum nm (fun m => exp (be_logw (b1 x) i m)) = 1) by (apply weights_update; [apply Hsd0|apply Hw]).
          destruct moves.
          + specialize (T eq_refl). unfold transition, transition_event in T. apply rbind_ok in T as (sc & _ & T).
            injection T as <-. exact W.
          + rewrite (F eq_refl). exact W.
        - intros x. apply Hb2. }
      cbn [length]. rewrite observed_entries_S.
      apply (integrates_app _ _ _ (fun x => exp (c x))).
      + apply (integrates_ext _ (fun x => exp (c x) * exp (log_density (recs' x))) _ (fun x => exp (c x) * 1)).
        * intros x. symmetry. apply Hb2.
        * intros x. ring.
        * apply integrates_factor; [|exact I]. intros s o x v Hin. f_equal.
          unfold observed_entries in Hin. apply in_map_iff in Hin as (j & [= <- <-] & Hj). apply in_rev, filter_In in Hj as [Hj _].
          apply in_seq in Hj. apply (proj2 (Hb1 _ _ (agree_set (S k) x j v ltac:(lia)))).
      + destruct (obs k) eqn:Ek.
        * exists (fun _ => 1). split; [|now intros]. intros x. unfold c.
          apply (contribution_integral an k t x b Ek (Hsd0 x)); [|apply Hw]. intros y Hy. now apply Hb.
        * intros x. unfold c. rewrite missing_contribution by exact Ek. apply exp_0.
  Qed.
End Density.
