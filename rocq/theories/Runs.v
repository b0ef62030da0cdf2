(** Comparing two runs of the filter: equal inputs at the events give equal records. *)
Require Import Reals Qreals String Arith Bool List Lia.
From Verif Require Import PyBase ListFacts ModelSpec ProcessModel CheckModel RSum Kalman Likelihood SpecLikelihood ScheduleFacts.
Import ListNotations.
Open Scope R_scope.

Section Runs.
  Variable qr : qr_function.
  Variable nan : R.
  Variables tfunc tfunc' : dict (list R) -> vec -> vec.
  Variables (n_obs nm n no nc : nat) (kappa : R) (inp inp' : inputs).

  (** Equation [k] of one run and equation [k'] of another one. *)
  Definition equation_agrees (k k' t : nat) : Prop :=
    in_loadings inp k = in_loadings inp' k' /\ in_control_params inp k = in_control_params inp' k' /\
    in_sd inp k = in_sd inp' k' /\ in_values inp k = in_values inp' k' /\ in_controls inp t = in_controls inp' t.

  Definition transition_agrees (t : nat) : Prop :=
    tfunc (in_coeffs inp t) = tfunc' (in_coeffs inp' t) /\ in_shock_sds inp t = in_shock_sds inp' t /\
    in_scaling inp t = in_scaling inp' t /\ in_constants inp t = in_constants inp' t /\
    in_scaling inp (S t) = in_scaling inp' (S t) /\ in_constants inp (S t) = in_constants inp' (S t) /\
    in_observed inp t = in_observed inp' t.

  Inductive event_agrees : event -> event -> Prop :=
  | ag_measure k k' t : equation_agrees k k' t -> event_agrees (Measure k t) (Measure k' t)
  | ag_anchor k k' t : equation_agrees k k' t -> event_agrees (Anchor k t) (Anchor k' t)
  | ag_transition t : transition_agrees t -> event_agrees (Transition t) (Transition t).

  Lemma update_agrees a k k' t b : equation_agrees k k' t ->
    update_event qr nan nm n nc inp a k t b = update_event qr nan nm n nc inp' a k' t b.
  Proof. intros (A & B & C & D & E). unfold update_event. now rewrite A, B, C, D, E. Qed.

  Lemma transition_event_agrees t b : transition_agrees t ->
    transition_event qr nan tfunc n_obs nm n no kappa inp t b = transition_event qr nan tfunc' n_obs nm n no kappa inp' t b.
  Proof.
    intros (A & B & C & D & E & F & G). unfold transition_event, kalman_predict, transform_sigma_points. cbv beta zeta.
    replace (t + 0)%nat with t by lia. replace (t + 1)%nat with (S t) by lia. rewrite A, B, C, D, E, F, G. reflexivity.
  Qed.

  Lemma run_agrees evs evs' : Forall2 event_agrees evs evs' -> forall b,
    run qr nan tfunc n_obs nm n no nc kappa inp evs b = run qr nan tfunc' n_obs nm n no nc kappa inp' evs' b.
  Proof.
    induction 1 as [|e e' evs evs' He _ IH]; intros b; [reflexivity|]. destruct He as [k k' t He|k k' t He|t He]; cbn [run].
    - rewrite (update_agrees false k k' t b He). destruct (update_event qr nan nm n nc inp' false k' t b) as [b' r].
      cbn [fst snd]. now rewrite IH.
    - rewrite (update_agrees true k k' t b He). destruct (update_event qr nan nm n nc inp' true k' t b) as [b' r].
      cbn [fst snd]. now rewrite IH.
    - rewrite (transition_event_agrees t b He). destruct (transition_event qr nan tfunc' n_obs nm n no kappa inp' t b); [|reflexivity].
      cbn [rbind]. apply IH.
  Qed.

  Lemma run_prefix e1 e2 : forall b recs, run qr nan tfunc n_obs nm n no nc kappa inp (e1 ++ e2) b = Ok recs ->
    exists r1 r2, run qr nan tfunc n_obs nm n no nc kappa inp e1 b = Ok r1 /\ recs = r1 ++ r2.
  Proof.
    induction e1 as [|e e1 IH]; intros b recs E; [exists [], recs; now split|].
    destruct e as [k t|k t|t]; cbn [app run] in E |- *; apply rbind_ok in E as (x & Ex & E).
    - injection E as <-. destruct (IH _ _ Ex) as (r1 & r2 & -> & ->). cbn [rbind]. do 2 eexists. split; [reflexivity|]. reflexivity.
    - injection E as <-. destruct (IH _ _ Ex) as (r1 & r2 & -> & ->). cbn [rbind]. do 2 eexists. split; [reflexivity|]. reflexivity.
    - rewrite Ex. cbn [rbind]. now apply IH.
  Qed.
End Runs.

Lemma code_events_app l1 l2 : forall k, exists rest, code_events k (l1 ++ l2) = code_events k l1 ++ rest.
Proof.
  induction l1 as [|tb l1 IH]; intros k; [exists (code_events k l2); reflexivity|].
  destruct (IH (S k)) as (rest & E). cbn [app code_events]. rewrite E. destruct l1 as [|tb' l1].
  - cbn [app]. cbn in E. subst. exists (match l2 with [] => [] | tb' :: _ => if (fst tb' =? S (fst tb))%nat then [Transition (fst tb)] else [] end ++ code_events (S k) l2).
    reflexivity.
  - exists rest. cbn [app]. now rewrite <- app_assoc.
Qed.

(** The events of a list of rows: equation [k] with its period, and transitions between
    the periods of two consecutive rows. *)
Lemma code_events_Forall (P : event -> event -> Prop) l : forall k,
  (forall i t b, nth_error l i = Some (t, b) -> P (ev (k + i) (t, b)) (ev (k + i) (t, b))) ->
  (forall i t b b', nth_error l i = Some (t, b) -> nth_error l (S i) = Some (S t, b') -> P (Transition t) (Transition t)) ->
  Forall2 P (code_events k l) (code_events k l).
Proof.
  induction l as [|[t b] l IH]; intros k H1 H2; [constructor|]. cbn [code_events]. constructor.
  - specialize (H1 O t b eq_refl). now rewrite Nat.add_0_r in H1.
  - apply Forall2_app.
    + destruct l as [|[t' b'] l]; [constructor|]. cbn [fst]. destruct (Nat.eqb_spec t' (S t)) as [->|]; [|constructor].
      constructor; [|constructor]. now apply (H2 O t b b').
    + apply IH.
      * intros i s c Hi. specialize (H1 (S i) s c Hi). now rewrite Nat.add_succ_r in H1.
      * intros i s c c' Hi Hi'. now apply (H2 (S i) s c c').
Qed.
