(** The iterations of the scan, seen as a list of events. *)
Require Import Reals String Arith ZArith Bool List Lia Sorted.
From Verif Require Import PyBase ListFacts ModelSpec ProcessModel CheckModel SpecModel ProcessModelFacts
  AcceptFacts ParamsIndex SpecIndex IndexFacts SpecFacts ParseParams SpecParse ParseFacts AnchorFacts PropsParse
  ProcessData SpecData RSum Kalman Likelihood SpecLikelihood.
Import ListNotations.
Open Scope nat_scope.

Definition ev (k : nat) (tb : nat * bool) : event :=
  if snd tb then Anchor k (fst tb) else Measure k (fst tb).

(** What the scan does for rows with the given periods and purposes. *)
Fixpoint code_events (k : nat) (l : list (nat * bool)) : list event :=
  match l with
  | [] => []
  | tb :: rest =>
      ev k tb :: (match rest with
                  | tb' :: _ => if fst tb' =? S (fst tb) then [Transition (fst tb)] else []
                  | [] => []
                  end) ++ code_events (S k) rest
  end.

Definition block (k : nat) (l : list (nat * bool)) (t : nat) : list event :=
  map (fun ke => ev (fst ke) (snd ke))
    (filter (fun ke => fst (snd ke) =? t) (combine (seq k (length l)) l)).

Definition spec_events (s m k : nat) (l : list (nat * bool)) : list event :=
  flat_map (fun t => block k l t ++ (if t + 1 <? s + m then [Transition t] else [])) (seq s m).

Lemma block_cons k tb l t :
  block k (tb :: l) t = (if fst tb =? t then [ev k tb] else []) ++ block (S k) l t.
Proof. unfold block. simpl. destruct (fst tb =? t); reflexivity. Qed.

Lemma block_none k l t : (forall tb, In tb l -> fst tb <> t) -> block k l t = [].
Proof.
  revert k. induction l as [|tb l IH]; intros k H; [reflexivity|].
  rewrite block_cons, (proj2 (Nat.eqb_neq _ _) (H tb (or_introl eq_refl))). simpl.
  apply IH. intros x Hx. apply H. now right.
Qed.

Lemma code_events_spec l : forall s m k,
  StronglySorted le (map fst l) ->
  (forall tb, In tb l -> s <= fst tb < s + m) ->
  (forall t, s <= t < s + m -> exists tb, In tb l /\ fst tb = t) ->
  code_events k l = spec_events s m k l.
Proof.
  induction l as [|[t b] rest IH]; intros s m k Hs Hr Hc.
  - destruct m as [|m]; [reflexivity|]. destruct (Hc s) as (tb & [] & _). lia.
  - simpl in Hs. inversion_clear Hs as [|? ? Hs' Hle].
    assert (t = s) as ->.
    { destruct (Hr (t, b) (or_introl eq_refl)) as [H1 H2]. simpl in *.
      destruct (Hc s) as (tb & [<-|Hin] & E); [lia|assumption|].
      rewrite Forall_forall in Hle. pose proof (Hle (fst tb) (in_map fst _ _ Hin)). lia. }
    destruct m as [|m]; [specialize (Hr (s, b) (or_introl eq_refl)); simpl in Hr; lia|].
    assert (Htail : forall tb, In tb rest -> s <= fst tb < s + S m).
    { intros tb Hin. apply Hr. now right. }
    unfold spec_events. simpl seq. cbn [flat_map]. rewrite block_cons. simpl fst. rewrite Nat.eqb_refl.
    cbn [code_events].
    destruct rest as [|[t' b'] rest'].
    + assert (m = 0) as ->.
      { destruct m as [|m]; [reflexivity|]. destruct (Hc (S s)) as (tb & [<-|[]] & E); [lia|]. simpl in E. lia. }
      simpl. now rewrite (proj2 (Nat.ltb_ge _ _)) by lia.
    + assert (Hcases : t' = s \/ t' = S s).
      { destruct (Htail _ (or_introl eq_refl)) as [H1 H2]. simpl in *.
        destruct (Nat.eq_dec t' s) as [|Hne]; [now left|right].
        destruct (Nat.eq_dec t' (S s)) as [|Hne']; [assumption|exfalso].
        destruct (Hc (S s)) as (tb & [<-|Hin] & E); [lia|simpl in E; lia|].
        inversion_clear Hs' as [|? ? _ Hle']. rewrite Forall_forall in Hle'.
        destruct Hin as [<-|Hin]; [simpl in E; lia|].
        pose proof (Hle' (fst tb) (in_map fst _ _ Hin)). lia. }
      cbn [fst]. destruct Hcases as [->| ->].
      * rewrite (proj2 (Nat.eqb_neq s (S s))) by lia. cbn [app].
        rewrite (IH s (S m) (S k) Hs' Htail).
        -- unfold spec_events. simpl seq. cbn [flat_map app]. f_equal. f_equal.
           apply flat_map_ext_in. intros t Ht. rewrite (block_cons k). cbn [fst].
           apply in_seq in Ht. now rewrite (proj2 (Nat.eqb_neq s t)) by lia.
        -- intros t Ht. destruct (Hc t Ht) as (tb & [<-|Hin] & E).
           ++ exists (s, b'). simpl in *. auto.
           ++ eauto.
      * rewrite Nat.eqb_refl. cbn [app].
        assert (Hgt : forall tb, In tb ((S s, b') :: rest') -> S s <= fst tb < S s + m).
        { intros tb Hin. split; [|destruct (Htail tb Hin); lia].
          destruct Hin as [<-|Hin]; [simpl; lia|]. inversion_clear Hs' as [|? ? _ Hle'].
          rewrite Forall_forall in Hle'. apply (Hle' (fst tb) (in_map fst _ _ Hin)). }
        rewrite (IH (S s) m (S k) Hs' Hgt).
        -- rewrite (block_none (S k) _ s) by (intros tb Hin; specialize (Hgt tb Hin); lia).
           rewrite (proj2 (Nat.ltb_lt (s + 1) (s + S m)))
             by (destruct (Hgt _ (or_introl eq_refl)); simpl in *; lia).
           cbn [app]. unfold spec_events. f_equal. f_equal.
           apply flat_map_ext_in. intros t Ht. rewrite (block_cons k). cbn [fst].
           apply in_seq in Ht. rewrite (proj2 (Nat.eqb_neq s t)) by lia. cbn [app].
           replace (S s + m) with (s + S m) by lia. reflexivity.
        -- intros t Ht. destruct (Hc t) as (tb & [<-|Hin] & E); [lia|simpl in E; lia|eauto].
Qed.

(** ** Rows are sorted by period *)

Lemma sorted_map_filter {A} (f : A -> nat) (P : A -> bool) l :
  StronglySorted le (map f l) -> StronglySorted le (map f (filter P l)).
Proof.
  induction l as [|x l IH]; simpl; intros H; [constructor|]. inversion_clear H as [|? ? H1 H2].
  destruct (P x); [|auto]. simpl. constructor; [auto|]. rewrite Forall_forall in *.
  intros y Hy. apply in_map_iff in Hy as (z & <- & Hz). apply filter_In in Hz as [Hz _].
  apply H2. now apply in_map.
Qed.

Lemma sorted_app l1 l2 : StronglySorted le l1 -> StronglySorted le l2 ->
  (forall a b, In a l1 -> In b l2 -> a <= b) -> StronglySorted le (l1 ++ l2).
Proof.
  induction l1 as [|x l1 IH]; simpl; intros H1 H2 H; [assumption|].
  inversion_clear H1 as [|? ? H3 H4]. constructor; [auto|].
  rewrite Forall_forall in *. intros y Hy. apply in_app_or in Hy as [Hy|Hy]; auto.
Qed.

Lemma equations_sorted md n : StronglySorted le (map fst (equations md n)).
Proof.
  unfold equations.
  assert (StronglySorted le (map fst (written_equations md n))) as H.
  { unfold written_equations. generalize 0. induction n as [|n IH]; intros s; [constructor|].
    cbn [seq flat_map]. rewrite map_app. apply sorted_app; [|apply IH|].
    - rewrite map_map. cbn [fst]. induction (_ ++ _ : list string) as [|v l IHl]; simpl; [constructor|].
      constructor; [exact IHl|]. rewrite Forall_forall. intros y Hy. apply in_map_iff in Hy as (z & <- & _).
      reflexivity.
    - intros a b Ha Hb. rewrite map_map in Ha. apply in_map_iff in Ha as (v & <- & _).
      apply in_map_iff in Hb as (q & <- & Hq). apply in_flat_map in Hq as (t & Ht & Hq).
      apply in_map_iff in Hq as (w & <- & _). apply in_seq in Ht. cbn [fst]. lia. }
  revert H. generalize (written_equations md n). induction l as [|x l IH]; simpl; intros H; [constructor|].
  inversion_clear H as [|? ? H1 H2]. constructor.
  - apply sorted_map_filter. auto.
  - rewrite Forall_forall in *. intros y Hy. apply in_map_iff in Hy as (z & <- & Hz).
    apply filter_In in Hz as [Hz _]. apply H2, in_map. revert Hz. clear.
    induction l as [|w l IH]; simpl; [tauto|]. intros [->|Hz]; [now left|].
    apply filter_In in Hz as [Hz _]. auto.
Qed.

Lemma equations_period md n t v : In (t, v) (equations md n) -> t < n.
Proof.
  intros H. unfold equations in H. apply In_first_appearances in H. unfold written_equations in H.
  apply in_flat_map in H as (s & Hs & H). apply in_map_iff in H as (w & [= -> _] & _).
  apply in_seq in Hs. lia.
Qed.

Definition purposes (u : list urow) : list (nat * bool) :=
  map (fun r => (u_period r, negb (is_measurement_row r))) u.

Lemma enumerate_map {A B} (g : A -> B) l :
  enumerate (map g l) = map (fun ke => (fst ke, g (snd ke))) (enumerate l).
Proof.
  unfold enumerate. rewrite map_length. generalize 0.
  induction l as [|x l IH]; intros s; simpl; [reflexivity|]. f_equal. apply IH.
Qed.

Section Model.
  Variables (md : model_dict) (p : processed) (n : nat).
  Hypothesis Hwf : wf_dicts md.
  Hypothesis Hp : process_model md = Ok p.
  Hypothesis Hn : has_n_periods md n.

  Lemma equations_update : equations md n = map u_key (p_update p).
  Proof. symmetry. now apply equations_keys. Qed.

  Lemma row_anchoring r : In r (p_update p) ->
    is_anchoring_equation md (u_var r) = negb (is_measurement_row r).
  Proof.
    intros Hr. pose proof (p_update_purpose md p r Hwf Hp Hr) as [Ha Hm].
    assert (Hlt : u_period r < n).
    { apply (equations_period md n _ (u_var r)). rewrite equations_update.
      apply in_map_iff. exists r. split; [reflexivity|assumption]. }
    unfold is_measurement_row. destruct (u_purpose r) as [[]|].
    - destruct (is_anchoring_equation md (u_var r)) eqn:E; [|reflexivity].
      exfalso. apply Hm; [reflexivity|]. unfold is_anchoring_equation in E.
      apply existsb_exists in E as (x & Hx & E). apply String.eqb_eq in E. subst x.
      apply in_map_iff in Hx as ([f o] & Ho & Hin). exists f. split; [eauto|].
      exists o. split; [now apply anchored_outcomes|]. now rewrite <- Ho.
    - destruct Ha as [Ha _]. destruct (Ha eq_refl) as (f & _ & o & Hao & Hv).
      simpl. apply existsb_exists. exists (u_var r). split; [|apply String.eqb_refl].
      apply in_map_iff. exists (f, o). split; [now rewrite Hv|]. now apply anchored_outcomes.
    - exfalso. destruct Ha as [_ Ha], Hm as [_ Hm].
      assert (~ exists f, anchors md (u_period r) f (u_var r)) as Hno.
      { intros H. apply Ha in H. discriminate. }
      apply Hm in Hno. discriminate.
  Qed.

  Lemma period_events_block t :
    period_events md n t = block 0 (purposes (p_update p)) t.
  Proof.
    unfold period_events, block.
    change (combine (seq 0 (length (purposes (p_update p)))) (purposes (p_update p)))
      with (enumerate (purposes (p_update p))).
    rewrite equations_update. unfold purposes. rewrite !enumerate_map, !filter_map_comm, !map_map.
    cbn [fst snd u_key]. apply map_ext_in. intros [k r] Hin. apply filter_In in Hin as [Hin Ht].
    cbn [fst snd] in *. apply Nat.eqb_eq in Ht.
    assert (In r (p_update p)) as Hr.
    { apply In_enumerate in Hin. now apply nth_error_In in Hin. }
    unfold ev. cbn [fst snd]. rewrite (row_anchoring r Hr), <- Ht. reflexivity.
  Qed.

  Lemma schedule_code : every_period_measured md n ->
    code_events 0 (purposes (p_update p)) = schedule md n.
  Proof.
    intros Hev. rewrite (code_events_spec _ 0 n).
    - unfold spec_events, schedule. apply flat_map_ext_in. intros t _. now rewrite period_events_block.
    - unfold purposes. rewrite map_map. cbn [fst]. pose proof (equations_sorted md n) as H.
      rewrite equations_update, map_map in H. exact H.
    - intros [t b] Hin. unfold purposes in Hin. apply in_map_iff in Hin as (r & [= <- <-] & Hr). cbn [fst].
      split; [lia|]. apply (equations_period md n _ (u_var r)). rewrite equations_update.
      apply in_map_iff. exists r. split; [reflexivity|assumption].
    - intros t [_ Ht]. destruct (Hev t Ht) as (v & Hin). rewrite equations_update in Hin.
      apply in_map_iff in Hin as (r & E & Hr). exists (u_period r, negb (is_measurement_row r)).
      split; [|cbn [fst]; now injection E]. unfold purposes. apply in_map_iff. eauto.
  Qed.
End Model.
