(** Following a schedule with anchoring equations, one mixture element at a time. *)
From Coquelicot Require Import Coquelicot.
Require Import Reals Lra Lia Psatz Arith Bool List.
From Verif Require Import PyBase RSum Kalman SpecKalman KalmanFacts PredictFacts KalmanOrder KalmanSeq SpecGaussian
  GaussianFacts GaussIntegral SpecLikelihood SpecStateSpace ScheduleFacts ListFacts PropsKalman StateSpaceFacts BayesFacts.
Import ListNotations.
Open Scope R_scope.

(** Events from period s on, in order; the last period. *)
Fixpoint walks (s : nat) (evs : list event) : option nat :=
  match evs with
  | [] => Some s
  | Measure _ t :: evs' => if (t =? s)%nat then walks s evs' else None
  | Anchor _ t :: evs' => if (t =? s)%nat then walks s evs' else None
  | Transition t :: evs' => if (t =? s)%nat then walks (S s) evs' else None
  end.

Lemma walks_le evs : forall s e, walks s evs = Some e -> (s <= e)%nat.
Proof.
  induction evs as [|[k t|k t|t] evs IH]; intros s e H; simpl in H.
  - injection H as <-. lia.
  - destruct (t =? s)%nat; [now apply IH|discriminate].
  - destruct (t =? s)%nat; [now apply IH|discriminate].
  - destruct (t =? s)%nat; [|discriminate]. apply IH in H. lia.
Qed.

Section AnchoredRun.
  Variable qr : qr_function.
  Hypothesis Hqr : correct_qr qr.
  Variable nan : R.
  Variable tfunc : dict (list R) -> vec -> vec.
  Variables (n_obs nm nl no nc : nat) (kappa : R).
  Variable inp : inputs.
  Variable i : nat.
  Variable am : nat -> mat.
  Variable bm : nat -> vec.
  Hypothesis Hnm : (1 <= nm)%nat.
  Hypothesis Hshape : no = O \/ nm = 1%nat.
  Hypothesis Hkappa : 0 <= kappa.
  Hypothesis Hpos : 0 < INR nl + kappa.

  Let update := update_event qr nan nm nl nc inp.
  Let transition := transition_event qr nan tfunc n_obs nm nl no kappa inp.
  Let runs := run qr nan tfunc n_obs nm nl no nc kappa inp.
  Let follows := follow qr nan tfunc n_obs nm nl no nc kappa inp.
  Let density := event_density nan tfunc nl nc inp i.
  Let good := good_belief nm nl i.

  (** Density of the value of equation k under element m, given the belief. *)
  Definition predicted (k t : nat) (b : belief) (m : nat) : R :=
    match in_values inp k i with
    | None => 1
    | Some y => measurement_density nl (be_states b i m) (cov nl (be_chols b i m)) (in_loadings inp k) (in_sd inp k)
                  (control_part nan nc (in_controls inp t) (in_control_params inp k) i) y
    end.

  Definition element (b : belief) (m : nat) (x : vec) : R := mvn_density nl (be_states b i m) (be_chols b i m) x.

  Lemma predicted_pos k t b m : in_sd inp k <> 0 -> 0 < predicted k t b m.
  Proof.
    intros Hsd. unfold predicted. destruct (in_values inp k i); [|lra]. apply normal_density_pos. now apply innovation_var_pos.
  Qed.

  (** Every update, also that of an anchoring equation, weights the elements by Bayes' rule. *)
  Lemma weight_step anchoring k t b : in_sd inp k <> 0 -> good b ->
    let br := update anchoring k t b in
    rsum nm (fun m => exp (be_logw (fst br) i m)) = 1 /\
    forall m, (m < nm)%nat ->
      exp (be_logw b i m) * predicted k t b m = exp (re_contribution (snd br) i) * exp (be_logw (fst br) i m).
  Proof.
    intros Hsd [Hr Hw] br. split; [exact (weights_after qr Hqr nan nm nl nc inp i Hnm k t b Hsd Hw)|].
    intros m Hm. unfold predicted. unfold br, update, update_event. cbn [fst snd be_logw re_contribution].
    destruct (in_values inp k i) as [y|] eqn:Ey.
    - rewrite (C32_bayes qr Hqr nan nm nl nc (be_states b) (be_chols b) (in_loadings inp k)
          (in_control_params inp k) (in_sd inp k) (in_values inp k) (in_controls inp t) (be_logw b) i y Hnm Hsd Ey Hw m Hm).
      rewrite (C33_contribution qr Hqr nan nm nl nc (be_states b) (be_chols b) (in_loadings inp k)
          (in_control_params inp k) (in_sd inp k) (in_values inp k) (in_controls inp t) (be_logw b) i Hnm Hsd Hw), Ey.
      assert (P : 0 < mixture_density nm nl (be_states b i) (be_chols b i) (fun m => exp (be_logw b i m)) (in_loadings inp k)
                    (in_sd inp k) (control_part nan nc (in_controls inp t) (in_control_params inp k) i) y).
      { apply rsum_pos; [assumption|]. intros m' Hm'. apply Rmult_lt_0_compat; [apply exp_pos|].
        apply normal_density_pos. now apply innovation_var_pos. }
      rewrite exp_ln by exact P. field. lra.
    - destruct (C31_missing_ignored qr nan nm nl nc (be_states b) (be_chols b) (in_loadings inp k)
          (in_control_params inp k) (in_sd inp k) (in_values inp k) (in_controls inp t) (be_logw b) i Ey)
          as (_ & _ & -> & -> & _).
      rewrite exp_0. ring.
  Qed.

  Lemma element_step k t b : in_sd inp k <> 0 -> good b ->
    good (fst (update false k t b)) /\
    forall m x, (m < nm)%nat ->
      element b m (x t) * equation_density nan nl nc inp i k t x
      = predicted k t b m * element (fst (update false k t b)) m (x t).
  Proof.
    intros Hsd Hb. destruct (measure_step qr Hqr nan tfunc nm nl nc inp i Hnm k t b Hsd Hb) as [Hb1 Hstep].
    split; [exact Hb1|]. intros m x Hm. pose proof (Hstep m x Hm) as S. unfold belief_density in S. cbn [event_density] in S.
    destruct (weight_step false k t b Hsd Hb) as [_ W]. specialize (W m Hm). cbv zeta in W.
    fold update in S. unfold element. pose proof (exp_pos (be_logw b i m)) as P.
    apply (Rmult_eq_reg_l (exp (be_logw b i m))); [|lra].
    rewrite <- !Rmult_assoc, W, S. ring.
  Qed.

  Lemma anchor_good k t b : in_sd inp k <> 0 -> good b -> good (fst (update true k t b)).
  Proof. intros Hsd Hb. split; [apply Hb|]. now apply weight_step. Qed.

  Lemma element_transition t b b' : good_event tfunc nl no inp am bm (Transition t) -> good b -> transition t b = Ok b' ->
    good b' /\ be_logw b' = be_logw b /\
    forall m, (m < nm)%nat -> exists back w, proper_root nl w /\
      forall x, element b m (x t) * density (Transition t) x = element b' m (x (S t)) * mvn_density nl (back (x (S t))) w (x t).
  Proof.
    intros G Hb E.
    destruct (transition_step qr Hqr nan tfunc n_obs nm nl no nc kappa inp i am bm Hnm Hshape Hkappa Hpos t b b' G Hb E) as [Hb' Hstep].
    assert (W : be_logw b' = be_logw b).
    { unfold transition, transition_event in E. apply rbind_ok in E as (sc & _ & E). injection E as <-. reflexivity. }
    split; [exact Hb'|]. split; [exact W|]. intros m Hm. destruct (Hstep m Hm) as (back & w & Hp & HT).
    exists back, w. split; [exact Hp|]. intros x. specialize (HT x). unfold belief_density in HT. rewrite W in HT.
    pose proof (exp_pos (be_logw b i m)) as P. unfold element, density.
    apply (Rmult_eq_reg_l (exp (be_logw b i m))); [|lra]. rewrite <- !Rmult_assoc. exact HT.
  Qed.

  (** The densities of all equations; the flag marks anchoring equations. *)
  Fixpoint preds (evs : list event) (b : belief) : list (bool * (nat -> R)) :=
    match evs with
    | [] => []
    | Measure k t :: evs' => (false, predicted k t b) :: preds evs' (fst (update false k t b))
    | Anchor k t :: evs' => (true, predicted k t b) :: preds evs' (fst (update true k t b))
    | Transition t :: evs' => match transition t b with Ok b' => preds evs' b' | Err _ => [] end
    end.

  Definition product_all (l : list (bool * (nat -> R))) (m : nat) : R := prod_list (map (fun bc : bool * (nat -> R) => snd bc m) l).
  Definition product_measured (l : list (bool * (nat -> R))) (m : nat) : R :=
    prod_list (map (fun bc : bool * (nat -> R) => if fst bc then 1 else snd bc m) l).

  Definition fine_event (ev : event) : Prop :=
    match ev with
    | Anchor k _ => in_sd inp k <> 0
    | _ => good_event tfunc nl no inp am bm ev
    end.

  Lemma product_all_cons a l m : product_all (a :: l) m = snd a m * product_all l m.
  Proof. reflexivity. Qed.
  Lemma product_measured_cons a l m : product_measured (a :: l) m = (if fst a then 1 else snd a m) * product_measured l m.
  Proof. reflexivity. Qed.
  Lemma total_cons r l : total i (r :: l) = re_contribution r i + total i l.
  Proof. reflexivity. Qed.
  Lemma densities_cons ev evs x : prod_list (map (fun ev => density ev x) (ev :: evs)) = density ev x * prod_list (map (fun ev => density ev x) evs).
  Proof. reflexivity. Qed.

  Lemma walks_density evs : forall s e b recs, walks s evs = Some e -> Forall fine_event evs -> good b ->
    runs evs b = Ok recs ->
    length (preds evs b) = length recs /\
    exists b', follows evs b = Ok b' /\ good b' /\
    forall m, (m < nm)%nat ->
      exp (be_logw b i m) * product_all (preds evs b) m = exp (total i recs) * exp (be_logw b' i m) /\
      exists rest : path -> R,
      (forall x, element b m (x s) * prod_list (map (fun ev => density ev x) evs)
                 = product_measured (preds evs b) m * element b' m (x e) * rest x) /\
      (forall t, (t < s)%nat -> ignores t rest) /\
      (forall h, (forall t, (s <= t)%nat -> (t < e)%nat -> ignores t h) ->
         integrates (entries_between nl s e) (fun x => h x * rest x) h).
  Proof.
    induction evs as [|[k t|k t|t] evs IH]; intros s e b recs Hwalk Hgood Hb Hrun; cbn [walks] in Hwalk.
    - injection Hwalk as <-. cbn in Hrun. injection Hrun as <-. split; [reflexivity|]. exists b. split; [reflexivity|]. split; [assumption|].
      intros m Hm. split; [unfold product_all, total; cbn; rewrite exp_0; ring|]. exists (fun _ => 1). split; [|split].
      + intros x. unfold product_measured. cbn. ring.
      + intros t _ x a v. reflexivity.
      + intros h _. unfold entries_between. rewrite Nat.sub_diag. intros x. ring.
    - destruct (Nat.eqb_spec t s) as [->|]; [|discriminate]. inversion_clear Hgood as [|? ? G Gs]. cbn [fine_event good_event] in G.
      unfold runs in Hrun. cbn [run] in Hrun. fold update runs in Hrun.
      destruct (runs evs (fst (update false k s b))) as [recs'|] eqn:Er; cbn [rbind] in Hrun; [|discriminate]. assert (Q : recs = snd (update false k s b) :: recs') by (revert Hrun; clear; intros E; injection E; intros <-; reflexivity). clear Hrun. subst recs.
      destruct (element_step k s b G Hb) as [Hb1 Hstep]. destruct (weight_step false k s b G Hb) as [_ Hweight]. cbv zeta in Hweight.
      destruct (IH s e _ _ Hwalk Gs Hb1 Er) as (Hlen & b' & Hf & Hb' & H).
      split; [cbn [preds length]; now rewrite Hlen|]. exists b'. split; [exact Hf|]. split; [exact Hb'|].
      intros m Hm. destruct (H m Hm) as (Hw & rest & H1 & H2 & H3). cbn [preds].
      fold update. rewrite total_cons, product_all_cons, product_measured_cons. cbn [fst snd]. split.
      + rewrite exp_plus, <- Rmult_assoc, (Hweight m Hm).
        transitivity (exp (re_contribution (snd (update false k s b)) i)
          * (exp (be_logw (fst (update false k s b)) i m) * product_all (preds evs (fst (update false k s b))) m)); [ring|].
        rewrite Hw. ring.
      + exists rest. split; [|split; assumption]. intros x. rewrite densities_cons. unfold density at 1. cbn [event_density].
        rewrite <- Rmult_assoc, (Hstep m x Hm).
        transitivity (predicted k s b m * (element (fst (update false k s b)) m (x s) * prod_list (map (fun ev => density ev x) evs))); [ring|].
        rewrite H1. ring.
    - destruct (Nat.eqb_spec t s) as [->|]; [|discriminate]. inversion_clear Hgood as [|? ? G Gs]. cbn [fine_event good_event] in G.
      unfold runs in Hrun. cbn [run] in Hrun. fold update runs in Hrun.
      destruct (runs evs (fst (update true k s b))) as [recs'|] eqn:Er; cbn [rbind] in Hrun; [|discriminate]. assert (Q : recs = snd (update true k s b) :: recs') by (revert Hrun; clear; intros E; injection E; intros <-; reflexivity). clear Hrun. subst recs.
      pose proof (anchor_good k s b G Hb) as Hb1. destruct (weight_step true k s b G Hb) as [_ Hweight]. cbv zeta in Hweight.
      destruct (IH s e _ _ Hwalk Gs Hb1 Er) as (Hlen & b' & Hf & Hb' & H).
      split; [cbn [preds length]; now rewrite Hlen|]. exists b'. split; [exact Hf|]. split; [exact Hb'|].
      intros m Hm. destruct (H m Hm) as (Hw & rest & H1 & H2 & H3). cbn [preds].
      fold update. rewrite total_cons, product_all_cons, product_measured_cons. cbn [fst snd]. split.
      + rewrite exp_plus, <- Rmult_assoc, (Hweight m Hm).
        transitivity (exp (re_contribution (snd (update true k s b)) i)
          * (exp (be_logw (fst (update true k s b)) i m) * product_all (preds evs (fst (update true k s b))) m)); [ring|].
        rewrite Hw. ring.
      + exists rest. split; [|split; assumption]. intros x. rewrite densities_cons. unfold density at 1. cbn [event_density].
        rewrite !Rmult_1_l. exact (H1 x).
    - destruct (Nat.eqb_spec t s) as [->|]; [|discriminate]. inversion_clear Hgood as [|? ? G Gs].
      unfold runs in Hrun. cbn [run] in Hrun. fold transition in Hrun.
      destruct (transition s b) as [b1|] eqn:Et; cbn [rbind] in Hrun; [|discriminate]. fold runs in Hrun.
      destruct (element_transition s b b1 G Hb Et) as (Hb1 & Hlw & Hstep).
      destruct (IH (S s) e _ _ Hwalk Gs Hb1 Hrun) as (Hlen & b' & Hf & Hb' & H).
      cbn [preds]. rewrite Et. split; [exact Hlen|]. exists b'.
      split; [unfold follows; cbn [follow]; fold transition; rewrite Et; exact Hf|].
      split; [exact Hb'|]. intros m Hm. destruct (H m Hm) as (Hw & rest & H1 & H2 & H3). split; [rewrite <- Hlw; exact Hw|].
      destruct (Hstep m Hm) as (back & w & Hpw & HT).
      exists (fun x => rest x * mvn_density nl (back (x (S s))) w (x s)). split; [|split].
      + intros x. rewrite densities_cons, <- Rmult_assoc, HT.
        transitivity (element b1 m (x (S s)) * prod_list (map (fun ev => density ev x) evs)
                      * mvn_density nl (back (x (S s))) w (x s)); [ring|]. rewrite H1. ring.
      + intros t Ht x a v. rewrite (H2 t ltac:(lia)). now rewrite !set_entry_other by lia.
      + intros h Hh. pose proof (walks_le _ _ _ Hwalk) as Hle.
        unfold entries_between. replace (e - s)%nat with (S (e - S s)) by lia. cbn [seq flat_map].
        apply (integrates_app _ _ _ (fun x => h x * rest x)).
        * apply (integrates_ext _ (fun x => h x * rest x * mvn_density nl (back (x (S s))) w (x s)) _ (fun x => h x * rest x));
            [intros x; ring|reflexivity|].
          apply (integrates_normal nl s (fun x => h x * rest x) (fun x => back (x (S s)))); [assumption| |].
          -- intros x a v. rewrite (Hh s), (H2 s) by lia. reflexivity.
          -- intros x a v. now rewrite set_entry_other by lia.
        * apply H3. intros t H4 H5. apply Hh; lia.
  Qed.

  Lemma preds_app e1 : forall e2 b b1, follows e1 b = Ok b1 -> preds (e1 ++ e2) b = preds e1 b ++ preds e2 b1.
  Proof.
    induction e1 as [|[k t|k t|t] e1 IH]; intros e2 b b1 F; unfold follows in *; cbn [follow app preds] in *.
    - now injection F as ->.
    - cbn [app]. f_equal. now apply IH.
    - cbn [app]. f_equal. now apply IH.
    - apply rbind_ok in F as (b2 & E & F). fold transition in E. rewrite E. now apply IH.
  Qed.

  (** All earlier periods integrated out, and everything integrated out, with and without
      one more equation. *)
  Lemma walks_integral evs e b recs : walks 0 evs = Some e -> Forall fine_event evs -> good b ->
    runs evs b = Ok recs ->
    exists b', follows evs b = Ok b' /\ good b' /\
    forall m, (m < nm)%nat ->
      exp (be_logw b i m) * product_all (preds evs b) m = exp (total i recs) * exp (be_logw b' i m) /\
      let joint := fun x => element b m (x O) * prod_list (map (fun ev => density ev x) evs) in
      integrates (entries_before nl e) joint (fun x => product_measured (preds evs b) m * element b' m (x e)) /\
      integrates (entries_before nl (S e)) joint (fun _ => product_measured (preds evs b) m) /\
      forall k, in_sd inp k <> 0 ->
        integrates (entries_before nl (S e)) (fun x => joint x * equation_density nan nl nc inp i k e x)
          (fun _ => product_measured (preds evs b) m * predicted k e b' m).
  Proof.
    intros Hw Hg Hb Hr. destruct (walks_density evs 0 e b recs Hw Hg Hb Hr) as (_ & b' & Hf & Hb' & H).
    exists b'. split; [exact Hf|]. split; [exact Hb'|]. intros m Hm. destruct (H m Hm) as (Hwt & rest & H1 & _ & H3).
    split; [exact Hwt|]. intros joint.
    assert (EB : entries_before nl e = entries_between nl 0 e) by (unfold entries_before, entries_between; now rewrite Nat.sub_0_r).
    assert (ES : entries_before nl (S e) = entries_before nl e ++ period_entries nl e).
    { unfold entries_before. rewrite seq_S, flat_map_app. cbn [flat_map Nat.add]. now rewrite app_nil_r. }
    set (P := product_measured (preds evs b) m) in *.
    assert (I1 : integrates (entries_before nl e) joint (fun x => P * element b' m (x e))).
    { rewrite EB. apply (integrates_ext _ (fun x => P * element b' m (x e) * rest x) _ (fun x => P * element b' m (x e)));
        [intros x; symmetry; apply H1|reflexivity|].
      apply H3. intros t _ Ht x a v. now rewrite set_entry_other by lia. }
    assert (I2 : forall b2 c, proper_root nl (be_chols b2 i m) ->
      integrates (period_entries nl e) (fun x => c * element b2 m (x e)) (fun _ => c)).
    { intros b2 c Hp. unfold element.
      apply (integrates_normal nl e (fun _ => c) (fun _ => be_states b2 i m)); [exact Hp| |]; intros x a v; reflexivity. }
    split; [exact I1|]. split.
    - rewrite ES. refine (integrates_app _ _ _ _ _ I1 _). apply I2. now apply Hb'.
    - intros k Hsd. destruct (element_step k e b' Hsd Hb') as [Hb2 Hstep]. rewrite ES.
      refine (integrates_app _ _ _ (fun x => P * predicted k e b' m * element (fst (update false k e b')) m (x e)) _ _ _).
      + rewrite EB.
        apply (integrates_ext _ (fun x => P * predicted k e b' m * element (fst (update false k e b')) m (x e) * rest x) _
          (fun x => P * predicted k e b' m * element (fst (update false k e b')) m (x e))).
        * intros x. unfold joint. pose proof (Hstep m x Hm) as S.
          transitivity (P * (predicted k e b' m * element (fst (update false k e b')) m (x e)) * rest x); [ring|].
          rewrite <- S. transitivity (P * element b' m (x e) * rest x * equation_density nan nl nc inp i k e x); [ring|].
          now rewrite <- H1.
        * reflexivity.
        * apply H3. intros t _ Ht x a v. now rewrite set_entry_other by lia.
      + apply I2. now apply Hb2.
  Qed.
End AnchoredRun.
