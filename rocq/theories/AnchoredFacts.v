(** The schedule of a model with anchoring, and the density of such a model by label. *)
From Coquelicot Require Import Coquelicot.
Require Import Reals Qreals String Arith ZArith Bool List Lia Lra Sorted.
From Verif Require Import PyBase ListFacts ModelSpec ProcessModel CheckModel SpecModel ProcessModelFacts
  SpecParse SpecIndex IndexFacts ParamsIndex ParseParams ParamsVec PropsSpec PropsParse ProcessData SpecData PropsData
  RSum Kalman SpecKalman KalmanFacts Clipping Likelihood SpecLikelihood ScheduleFacts LikelihoodFacts LikelihoodRun PropsKalman
  PropsLikelihood PropsFiltered TransitionFunctions SpecTransition TransitionFacts PropsTransition SpecGaussian GaussianFacts
  SpecStateSpace StateSpaceFacts SpecModelDensity ModelDensityFacts BayesFacts AnchoredRun SpecQuadratic SpecAnchored.
Import ListNotations.
Open Scope R_scope.

(** ** Schedules *)

Definition measured_only (evs : list event) : list (nat * nat) :=
  flat_map (fun e => match e with Measure k t => [(k, t)] | _ => [] end) evs.

Lemma measured_only_app a b : measured_only (a ++ b) = measured_only a ++ measured_only b.
Proof. apply flat_map_app. Qed.

Lemma walks_app e1 : forall s e2, walks s (e1 ++ e2) = match walks s e1 with Some r => walks r e2 | None => None end.
Proof.
  induction e1 as [|[k t|k t|t] e1 IH]; intros s e2; cbn [app walks]; try reflexivity;
    (destruct (t =? s)%nat; [apply IH|reflexivity]).
Qed.

Definition gap (t : nat) (l : list (nat * bool)) : list event :=
  match l with tb :: _ => if (fst tb =? S t)%nat then [Transition t] else [] | [] => [] end.

Lemma events_head k tb l : code_events k (tb :: l) = ev k tb :: gap (fst tb) l ++ code_events (S k) l.
Proof. destruct l; reflexivity. Qed.

Lemma walks_events l : forall k tb, chain (fst tb) (map fst l) -> walks (fst tb) (code_events k (tb :: l)) = Some (last (map fst l) (fst tb)).
Proof.
  induction l as [|tb' l IH]; intros k tb H.
  - cbn. unfold ev. destruct (snd tb); cbn; now rewrite Nat.eqb_refl.
  - destruct H as [Ht H]. rewrite events_head.
    assert (L : last (map fst (tb' :: l)) (fst tb) = last (map fst l) (fst tb')).
    { cbn [map]. destruct (map fst l) as [|a ts]; [reflexivity|]. apply (last_default (a :: ts)). discriminate. }
    rewrite L. rewrite <- (IH (S k) tb' H).
    assert (G : walks (fst tb) (gap (fst tb) (tb' :: l) ++ code_events (S k) (tb' :: l)) = walks (fst tb') (code_events (S k) (tb' :: l))).
    { unfold gap. destruct Ht as [Ht|Ht]; rewrite Ht.
      - rewrite (proj2 (Nat.eqb_neq (fst tb) (S (fst tb)))) by lia. reflexivity.
      - rewrite Nat.eqb_refl. cbn [app walks]. now rewrite Nat.eqb_refl. }
    unfold ev at 1. destruct (snd tb); cbn [walks]; rewrite Nat.eqb_refl; exact G.
Qed.

Lemma gap_measured t l : measured_only (gap t l) = [].
Proof. destruct l as [|tb l]; [reflexivity|]. unfold gap. now destruct (fst tb =? S t)%nat. Qed.

Lemma events_snoc l tb : forall k, exists evs,
  code_events k (l ++ [tb]) = evs ++ [ev (k + length l) tb] /\ measured_only evs = measured_only (code_events k l).
Proof.
  induction l as [|tb' l IH]; intros k; cbn [app].
  - exists []. cbn. now rewrite Nat.add_0_r.
  - rewrite !events_head. destruct (IH (S k)) as (evs & E & M). rewrite E.
    exists (ev k tb' :: gap (fst tb') (l ++ [tb]) ++ evs). cbn [app length]. split.
    + rewrite <- app_assoc. now replace (k + S (length l))%nat with (S k + length l)%nat by lia.
    + change (ev k tb' :: gap (fst tb') (l ++ [tb]) ++ evs) with ([ev k tb'] ++ gap (fst tb') (l ++ [tb]) ++ evs).
      change (ev k tb' :: gap (fst tb') l ++ code_events (S k) l) with ([ev k tb'] ++ gap (fst tb') l ++ code_events (S k) l).
      now rewrite !measured_only_app, !gap_measured, M.
Qed.

Lemma events_app l1 l2 : forall k, exists evs, code_events k (l1 ++ l2) = code_events k l1 ++ evs.
Proof.
  induction l1 as [|tb l IH]; intros k; [now eexists|]. cbn [app]. rewrite !events_head.
  destruct (IH (S k)) as [evs ->]. destruct l as [|tb' l].
  - cbn [app]. eexists. reflexivity.
  - cbn [app]. exists evs. cbn [gap]. now rewrite app_assoc.
Qed.

Lemma event_equation e l : forall k, In e (code_events k l) ->
  match e with
  | Measure j t => (k <= j)%nat /\ exists b, nth_error l (j - k) = Some (t, b)
  | Anchor j t => (k <= j)%nat /\ exists b, nth_error l (j - k) = Some (t, b)
  | Transition t => In (S t) (map fst l)
  end.
Proof.
  induction l as [|tb l IH]; intros k He; [destruct He|]. rewrite events_head in He. destruct He as [E0|He]; [subst e|].
  - unfold ev. destruct tb as [t b]. cbn [fst snd].
    destruct b; (split; [lia|]); rewrite Nat.sub_diag; eexists; reflexivity.
  - apply in_app_or in He as [He|He].
    + destruct l as [|tb' l]; [destruct He|]. unfold gap in He. destruct (Nat.eqb_spec (fst tb') (S (fst tb))) as [E|]; [|destruct He].
      destruct He as [<-|[]]. right. left. exact E.
    + specialize (IH _ He). destruct e as [j t|j t|t].
      * destruct IH as (L & b & Hb). split; [lia|]. exists b. replace (j - k)%nat with (S (j - S k)) by lia. exact Hb.
      * destruct IH as (L & b & Hb). split; [lia|]. exists b. replace (j - k)%nat with (S (j - S k)) by lia. exact Hb.
      * right. exact IH.
Qed.

Lemma follow_snoc qr nan tfunc n_obs nm nl no nc kappa inp evs e b b1 :
  follow qr nan tfunc n_obs nm nl no nc kappa inp evs b = Ok b1 ->
  follow qr nan tfunc n_obs nm nl no nc kappa inp (evs ++ [e]) b = follow qr nan tfunc n_obs nm nl no nc kappa inp [e] b1.
Proof.
  revert b. induction evs as [|[k' t'|k' t'|t'] evs IH]; intros b A; cbn [app follow] in *.
  - injection A as ->. reflexivity.
  - now apply IH.
  - now apply IH.
  - apply rbind_ok in A as (b2 & -> & A). cbn [rbind]. now apply IH.
Qed.

Lemma events_density nan tfunc nl nc inp i x evs : forall s e, walks s evs = Some e ->
  prod_list (map (fun ev => event_density nan tfunc nl nc inp i ev x) evs)
  = prod_list (map (fun t => shock_density nan tfunc nl inp i t x) (seq s (e - s)))
    * prod_list (map (fun kt => equation_density nan nl nc inp i (fst kt) (snd kt) x) (measured_only evs)).
Proof.
  induction evs as [|[k t|k t|t] evs IH]; intros s e H; cbn [walks] in H.
  - injection H as <-. rewrite Nat.sub_diag. unfold prod_list. cbn. ring.
  - destruct (t =? s)%nat; [|discriminate].
    change (prod_list (map (fun ev => event_density nan tfunc nl nc inp i ev x) (Measure k t :: evs)))
      with (equation_density nan nl nc inp i k t x * prod_list (map (fun ev => event_density nan tfunc nl nc inp i ev x) evs)).
    change (prod_list (map (fun kt => equation_density nan nl nc inp i (fst kt) (snd kt) x) (measured_only (Measure k t :: evs))))
      with (equation_density nan nl nc inp i k t x * prod_list (map (fun kt => equation_density nan nl nc inp i (fst kt) (snd kt) x) (measured_only evs))).
    rewrite (IH s e H). ring.
  - destruct (t =? s)%nat; [|discriminate].
    change (prod_list (map (fun ev => event_density nan tfunc nl nc inp i ev x) (Anchor k t :: evs)))
      with (1 * prod_list (map (fun ev => event_density nan tfunc nl nc inp i ev x) evs)).
    change (measured_only (Anchor k t :: evs)) with (measured_only evs). rewrite (IH s e H). ring.
  - destruct (Nat.eqb_spec t s) as [->|]; [|discriminate]. pose proof (walks_le _ _ _ H) as Hle.
    replace (e - s)%nat with (S (e - S s)) by lia. cbn [seq map].
    change (prod_list (event_density nan tfunc nl nc inp i (Transition s) x :: map (fun ev => event_density nan tfunc nl nc inp i ev x) evs))
      with (shock_density nan tfunc nl inp i s x * prod_list (map (fun ev => event_density nan tfunc nl nc inp i ev x) evs)).
    rewrite (IH (S s) e H).
    change (measured_only (Transition s :: evs)) with (measured_only evs). unfold prod_list. cbn [fold_right]. ring.
Qed.

Lemma preds_pos qr nan tfunc n_obs nm nl no nc kappa inp i am bm evs : forall b,
  Forall (fine_event tfunc nl no inp am bm) evs ->
  Forall (fun bc => forall m, 0 < snd bc m) (preds qr nan tfunc n_obs nm nl no nc kappa inp i evs b).
Proof.
  induction evs as [|[k t|k t|t] evs IH]; intros b H; cbn [preds]; [constructor|..]; inversion_clear H as [|? ? G Gs].
  - constructor; [intros m; now apply predicted_pos|now apply IH].
  - constructor; [intros m; now apply predicted_pos|now apply IH].
  - destruct (transition_event _ _ _ _ _ _ _ _ _ t b); [now apply IH|constructor].
Qed.
