(** Prefixes of the schedule of a model without anchoring. *)
From Coquelicot Require Import Coquelicot.
Require Import Reals Qreals String Arith ZArith Bool List Lia Lra Sorted.
From Verif Require Import PyBase ListFacts ModelSpec ProcessModel CheckModel SpecModel ProcessModelFacts
  SpecParse SpecIndex IndexFacts ParamsIndex ParseParams ParamsVec PropsSpec PropsParse ProcessData SpecData PropsData
  RSum Kalman SpecKalman KalmanFacts Clipping Likelihood SpecLikelihood ScheduleFacts LikelihoodFacts LikelihoodRun PropsKalman
  PropsLikelihood PropsFiltered TransitionFunctions SpecTransition TransitionFacts PropsTransition SpecGaussian GaussianFacts
  SpecStateSpace StateSpaceFacts SpecModelDensity ModelDensityFacts.
Import ListNotations.
Open Scope R_scope.

(** ** Events of a list of periods *)

Definition plain (ts : list nat) : list (nat * bool) := map (fun t => (t, false)) ts.

(** Each period is the previous one or the next one. *)
Fixpoint chain (prev : nat) (ts : list nat) : Prop :=
  match ts with
  | [] => True
  | t :: ts' => (t = prev \/ t = S prev) /\ chain t ts'
  end.

Lemma chain_firstn j : forall prev ts, chain prev ts -> chain prev (firstn j ts).
Proof.
  induction j as [|j IH]; intros prev [|t ts] H; cbn [firstn chain] in *; auto. destruct H as [A B]. auto.
Qed.

Lemma chain_sorted ts : forall prev, StronglySorted le ts -> (forall t, In t ts -> (prev <= t)%nat) ->
  (forall t, (prev < t)%nat -> (exists s, In s ts /\ (t <= s)%nat) -> In t ts) -> chain prev ts.
Proof.
  induction ts as [|t ts IH]; intros prev Hs Hlow Hcov; [exact I|]. cbn [chain].
  apply StronglySorted_inv in Hs as [Hs Hh]. rewrite Forall_forall in Hh.
  assert (Hp : (prev <= t)%nat) by (apply Hlow; now left). split.
  - destruct (Nat.le_gt_cases t (S prev)) as [L|G]; [lia|]. exfalso.
    destruct (Hcov (S prev) ltac:(lia)) as [E|Hin]; [exists t; split; [now left|lia]|lia|].
    specialize (Hh _ Hin). lia.
  - apply IH; [exact Hs|exact Hh|]. intros s Hlt (r & Hr & Hle).
    destruct (Hcov s ltac:(lia)) as [E|Hin]; [exists r; split; [now right|exact Hle]|lia|exact Hin].
Qed.

Lemma last_default {A} (l : list A) d d' : l <> [] -> last l d = last l d'.
Proof.
  induction l as [|a l IH]; [congruence|]. intros _. destruct l as [|b l]; [reflexivity|].
  cbn [last]. apply IH. discriminate.
Qed.

Lemma plain_head k t ts :
  code_events k (plain (t :: ts))
  = Measure k t :: (match ts with t' :: _ => if (t' =? S t)%nat then [Transition t] else [] | [] => [] end)
      ++ code_events (S k) (plain ts).
Proof. destruct ts; reflexivity. Qed.

Lemma walk_plain ts : forall k t, chain t ts -> walk t (code_events k (plain (t :: ts))) = Some (last ts t).
Proof.
  induction ts as [|t' ts IH]; intros k t H.
  - cbn. now rewrite Nat.eqb_refl.
  - destruct H as [Ht H]. rewrite plain_head. cbn [walk]. rewrite Nat.eqb_refl.
    assert (L : last (t' :: ts) t = last ts t').
    { destruct ts as [|a ts]; [reflexivity|]. apply (last_default (a :: ts)). discriminate. }
    rewrite L. destruct Ht as [-> | ->].
    + rewrite (proj2 (Nat.eqb_neq t (S t))) by lia. cbn [app]. now apply IH.
    + rewrite Nat.eqb_refl. cbn [app walk]. rewrite Nat.eqb_refl. now apply IH.
Qed.

(** The equations among the events. *)
Definition measured (evs : list event) : list (nat * nat) :=
  flat_map (fun e => match e with Measure k t => [(k, t)] | Anchor k t => [(k, t)] | Transition _ => [] end) evs.

Lemma measured_plain ts : forall k, measured (code_events k (plain ts)) = combine (seq k (length ts)) ts.
Proof.
  induction ts as [|t ts IH]; intros k; [reflexivity|]. rewrite plain_head. unfold measured in *. cbn [flat_map length seq combine app].
  f_equal. rewrite flat_map_app, IH. destruct ts as [|t' ts]; [reflexivity|]. destruct (t' =? S t)%nat; reflexivity.
Qed.

Lemma no_anchor_plain ts : forall k e, In e (code_events k (plain ts)) -> match e with Anchor _ _ => False | _ => True end.
Proof.
  induction ts as [|t ts IH]; intros k e H; [destruct H|]. rewrite plain_head in H. destruct H as [<-|H]; [exact I|].
  apply in_app_or in H as [H|H]; [|eapply IH, H].
  destruct ts as [|t' ts]; [destruct H|]. destruct (t' =? S t)%nat; [|destruct H]. destruct H as [<-|[]]. exact I.
Qed.

Lemma transitions_plain ts : forall k t s, In (Transition s) (code_events k (plain (t :: ts))) -> In (S s) ts.
Proof.
  induction ts as [|t' ts IH]; intros k t s H.
  - destruct H as [H|[]]. discriminate.
  - rewrite plain_head in H. destruct H as [H|H]; [discriminate|]. apply in_app_or in H as [H|H].
    + destruct (Nat.eqb_spec t' (S t)) as [->|]; [|destruct H]. destruct H as [H|[]]. injection H as ->. now left.
    + right. eapply IH, H.
Qed.

Lemma plain_app ts1 ts2 : forall k, exists evs,
  code_events k (plain (ts1 ++ ts2)) = code_events k (plain ts1) ++ evs.
Proof.
  induction ts1 as [|t ts IH]; intros k; [now eexists|]. cbn [app]. rewrite !plain_head.
  destruct (IH (S k)) as [evs ->]. destruct ts as [|t' ts].
  - cbn [app]. eexists. reflexivity.
  - cbn [app]. exists evs. now rewrite app_assoc.
Qed.

Lemma plain_snoc ts t : forall k, exists evs,
  code_events k (plain (ts ++ [t])) = evs ++ [Measure (k + length ts) t].
Proof.
  induction ts as [|t' ts IH]; intros k; cbn [app].
  - exists []. cbn. now rewrite Nat.add_0_r.
  - rewrite plain_head. destruct (IH (S k)) as [evs ->]. eexists (_ :: _ ++ evs). cbn [app length].
    rewrite <- app_assoc. now replace (k + S (length ts))%nat with (S k + length ts)%nat by lia.
Qed.

(** ** Runs of prefixes *)

Section Runs.
  Variable qr : qr_function.
  Variable nan : R.
  Variable tfunc : dict (list R) -> vec -> vec.
  Variables (n_obs nm nl no nc : nat) (kappa : R) (inp : inputs).
  Let runs := run qr nan tfunc n_obs nm nl no nc kappa inp.
  Let follows := follow qr nan tfunc n_obs nm nl no nc kappa inp.

  Lemma run_app e1 : forall e2 b recs, runs (e1 ++ e2) b = Ok recs ->
    exists b1 r1 r2, follows e1 b = Ok b1 /\ runs e1 b = Ok r1 /\ runs e2 b1 = Ok r2 /\ recs = r1 ++ r2.
  Proof.
    induction e1 as [|[k t|k t|t] e1 IH]; intros e2 b recs H; unfold runs, follows in *; cbn [app run follow] in *.
    - exists b, [], recs. auto.
    - apply rbind_ok in H as (rest & Hr & E). injection E as <-.
      destruct (IH _ _ _ Hr) as (b1 & r1 & r2 & A & B & C & ->). exists b1. eexists. exists r2.
      split; [exact A|]. rewrite B. cbn [rbind]. auto.
    - apply rbind_ok in H as (rest & Hr & E). injection E as <-.
      destruct (IH _ _ _ Hr) as (b1 & r1 & r2 & A & B & C & ->). exists b1. eexists. exists r2.
      split; [exact A|]. rewrite B. cbn [rbind]. auto.
    - apply rbind_ok in H as (b' & Ht & H). rewrite Ht. cbn [rbind].
      destruct (IH _ _ _ H) as (b1 & r1 & r2 & A & B & C & ->). exists b1, r1, r2. auto.
  Qed.

  Lemma run_length evs : forall b recs, runs evs b = Ok recs -> length recs = length (measured evs).
  Proof.
    induction evs as [|[k t|k t|t] evs IH]; intros b recs H; unfold runs in *; cbn [run] in H; unfold measured; cbn [flat_map app length].
    - now injection H as <-.
    - apply rbind_ok in H as (rest & Hr & E). injection E as <-. cbn [length]. f_equal. exact (IH _ _ Hr).
    - apply rbind_ok in H as (rest & Hr & E). injection E as <-. cbn [length]. f_equal. exact (IH _ _ Hr).
    - apply rbind_ok in H as (b' & _ & H). exact (IH _ _ H).
  Qed.

  Lemma run_snoc evs k t b recs b' : runs (evs ++ [Measure k t]) b = Ok recs ->
    follows (evs ++ [Measure k t]) b = Ok b' ->
    exists recs' r, recs = recs' ++ [r] /\ re_states r = be_states b' /\ re_logw r = be_logw b'.
  Proof.
    intros H F. destruct (run_app _ _ _ _ H) as (b1 & r1 & r2 & A & B & C & ->).
    assert (F' : follows [Measure k t] b1 = Ok b').
    { rewrite <- F. clear -A. revert b A. unfold follows.
      induction evs as [|[k' t'|k' t'|t'] evs IH]; intros b A; cbn [app follow] in *.
      - injection A as ->. reflexivity.
      - now apply IH.
      - now apply IH.
      - apply rbind_ok in A as (b2 & -> & A). cbn [rbind]. now apply IH. }
    unfold follows in F'. cbn [follow] in F'. injection F' as <-.
    unfold runs in C. cbn [run rbind] in C. injection C as <-. exists r1. eexists. split; [reflexivity|]. split; reflexivity.
  Qed.
End Runs.

(** ** The product over the events *)

Lemma prod_list_app l l' : prod_list (l ++ l') = prod_list l * prod_list l'.
Proof. unfold prod_list. induction l as [|a l IH]; cbn [app fold_right]; [ring|]. rewrite IH. ring. Qed.

Lemma walk_forward evs : forall s e, walk s evs = Some e -> (s <= e)%nat.
Proof.
  induction evs as [|[k t|k t|t] evs IH]; intros s e H; simpl in H.
  - injection H as <-. lia.
  - destruct (t =? s)%nat; [now apply IH|discriminate].
  - discriminate.
  - destruct (t =? s)%nat; [|discriminate]. apply IH in H. lia.
Qed.

Lemma events_product nan tfunc nl nc inp i x evs : forall s e, walk s evs = Some e ->
  prod_list (map (fun ev => event_density nan tfunc nl nc inp i ev x) evs)
  = prod_list (map (fun t => shock_density nan tfunc nl inp i t x) (seq s (e - s)))
    * prod_list (map (fun kt => equation_density nan nl nc inp i (fst kt) (snd kt) x) (measured evs)).
Proof.
  induction evs as [|[k t|k t|t] evs IH]; intros s e H; cbn [walk] in H.
  - injection H as <-. rewrite Nat.sub_diag. unfold prod_list. cbn. ring.
  - destruct (t =? s)%nat; [|discriminate].
    change (prod_list (map (fun ev => event_density nan tfunc nl nc inp i ev x) (Measure k t :: evs)))
      with (equation_density nan nl nc inp i k t x * prod_list (map (fun ev => event_density nan tfunc nl nc inp i ev x) evs)).
    change (prod_list (map (fun kt => equation_density nan nl nc inp i (fst kt) (snd kt) x) (measured (Measure k t :: evs))))
      with (equation_density nan nl nc inp i k t x * prod_list (map (fun kt => equation_density nan nl nc inp i (fst kt) (snd kt) x) (measured evs))).
    rewrite (IH s e H). ring.
  - discriminate.
  - destruct (Nat.eqb_spec t s) as [->|]; [|discriminate]. pose proof (walk_forward _ _ _ H) as Hle.
    replace (e - s)%nat with (S (e - S s)) by lia. cbn [seq map].
    change (prod_list (event_density nan tfunc nl nc inp i (Transition s) x :: map (fun ev => event_density nan tfunc nl nc inp i ev x) evs))
      with (shock_density nan tfunc nl inp i s x * prod_list (map (fun ev => event_density nan tfunc nl nc inp i ev x) evs)).
    rewrite (IH (S s) e H).
    change (measured (Transition s :: evs)) with (measured evs). unfold prod_list. cbn [fold_right]. ring.
Qed.
