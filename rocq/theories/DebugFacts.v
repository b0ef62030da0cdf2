(** Lemmas about the tables of the debug output. *)
Require Import Reals Qreals String Arith ZArith Bool List Lia Lra Sorted.
From Verif Require Import PyBase ListFacts ModelSpec ProcessModel CheckModel SpecModel ProcessModelFacts
  SpecParse SpecIndex IndexFacts ParamsIndex ParseParams ParamsVec PropsParse ProcessData RSum Kalman
  Clipping Likelihood SpecLikelihood ScheduleFacts DebugData SpecDebug.
Import ListNotations.
Open Scope string_scope.
Open Scope list_scope.
Open Scope nat_scope.

(** Tables with numbered rows. *)
Definition numbered (columns : list string) (n : nat) (g : nat -> string -> cell) : table :=
  mk_table columns (map g (range n)).

Lemma enumerate_range n : enumerate (range n) = map (fun k => (k, k)) (range n).
Proof.
  unfold enumerate, range. rewrite seq_length. generalize 0 as s. induction n as [|n IH]; intros s; simpl; [reflexivity|].
  f_equal. apply IH.
Qed.

Lemma set_column_numbered name values columns n g :
  set_column name values (numbered columns n g)
  = numbered (if smem name columns then columns else columns ++ [name]) n
      (fun k c => if String.eqb c name then values k else g k c).
Proof.
  unfold set_column, numbered. cbn [tb_columns tb_rows]. f_equal.
  rewrite enumerate_map, enumerate_range, !map_map. reflexivity.
Qed.

Lemma dget_combine {V} (names : list string) (vals : list V) j f x :
  NoDup names -> nth_error names j = Some f -> nth_error vals j = Some x ->
  dget (combine names vals) f = Some x.
Proof.
  revert vals j. induction names as [|y names IH]; intros vals j Hnd Hj Hx; [destruct j; discriminate|].
  destruct vals as [|z vals]; [destruct j; discriminate|]. inversion_clear Hnd as [|? ? Hni Hnd'].
  destruct j as [|j]; simpl in *.
  - injection Hj as ->. injection Hx as ->. now rewrite String.eqb_refl.
  - destruct (String.eqb_spec f y) as [->|]; [|eauto]. apply nth_error_In in Hj. contradiction.
Qed.

Lemma data_frame_numbered n_rows n_cols arr columns :
  length columns = n_cols ->
  exists g, data_frame n_rows n_cols arr columns = Ok (numbered columns n_rows g) /\
    (NoDup columns -> forall r j f, nth_error columns j = Some f -> g r f = arr r j).
Proof.
  intros Hl. unfold data_frame. rewrite (proj2 (Nat.eqb_eq _ _) Hl). eexists. split; [reflexivity|].
  intros Hnd r j f Hj. cbv beta.
  rewrite (dget_combine columns (map (arr r) (range n_cols)) j f (arr r j)); [reflexivity|assumption..|].
  apply map_nth_error. apply nth_error_range. rewrite <- Hl. apply nth_error_Some. congruence.
Qed.

Lemma nth_error_flat_map {A B} (g : A -> list B) w l : (forall x, In x l -> length (g x) = w) ->
  forall k i x, nth_error l k = Some x -> i < w -> nth_error (flat_map g l) (k * w + i) = nth_error (g x) i.
Proof.
  induction l as [|y l IH]; intros H k i x Hk Hi; [destruct k; discriminate|].
  assert (Hy : length (g y) = w) by (apply H; now left). destruct k as [|k]; simpl in *.
  - injection Hk as ->. apply nth_error_app1. lia.
  - rewrite nth_error_app2 by lia. replace (w + k * w + i - length (g y)) with (k * w + i) by lia.
    apply IH; [|assumption..]. intros z Hz. apply H. now right.
Qed.

Lemma length_flat_map {A B} (g : A -> list B) w l : (forall x, In x l -> length (g x) = w) ->
  length (flat_map g l) = length l * w.
Proof.
  induction l as [|y l IH]; intros H; [reflexivity|]. simpl. rewrite app_length, IH, H; [reflexivity|now left|].
  intros x Hx. apply H. now right.
Qed.

(** A table put together from one part with numbered rows for each element of a list. *)
Lemma concat_parts {A} (part : A -> result table) columns w l :
  l <> [] ->
  (forall x, In x l -> exists g, part x = Ok (numbered columns w g)) ->
  exists tb, (do parts <- mapM part l; concat_tables parts) = Ok tb /\
    tb_columns tb = columns /\ length (tb_rows tb) = length l * w /\
    forall k x i, nth_error l k = Some x -> i < w ->
      exists g, part x = Ok (numbered columns w g) /\ nth_error (tb_rows tb) (k * w + i) = Some (g i).
Proof.
  intros Hne H.
  destruct (mapM_total part l) as [parts Hp]. { intros x Hx. destruct (H x Hx) as [g Hg]. eauto. }
  rewrite Hp. cbn [rbind].
  assert (Hall : forall t, In t parts -> exists g, t = numbered columns w g).
  { intros t Ht. destruct (mapM_In_inv part l parts t Hp Ht) as (x & Ex & Hx).
    destruct (H x Hx) as [g Hg]. rewrite Hg in Ex. injection Ex as <-. eauto. }
  assert (Hlen : forall t, In t parts -> length (tb_rows t) = w).
  { intros t Ht. destruct (Hall t Ht) as [g ->]. simpl. unfold range. now rewrite map_length, seq_length. }
  pose proof (mapM_length part l parts Hp) as Hl.
  destruct parts as [|t0 parts']; [destruct l; [congruence|discriminate]|].
  eexists. split; [reflexivity|]. cbn [tb_columns tb_rows]. split; [|split].
  - destruct (Hall t0 (or_introl eq_refl)) as [g ->]. reflexivity.
  - rewrite (length_flat_map tb_rows w (t0 :: parts') Hlen), Hl. reflexivity.
  - intros k x i Hk Hi. destruct (mapM_nth_error part l _ k x Hp Hk) as (t & Ht & Ex).
    rewrite (nth_error_flat_map tb_rows w (t0 :: parts') Hlen k i t Ht Hi).
    destruct (Hall t (nth_error_In _ _ Ht)) as [g ->]. exists g. split; [exact Ex|].
    simpl. apply map_nth_error. now apply nth_error_range.
Qed.

(** ** The last measurement of a period *)

Lemma hd_rev_filter {A} (P : A -> bool) (u : list A) : forall r,
  hd_error (rev (filter P u)) = Some r <->
  exists k, nth_error u k = Some r /\ P r = true /\
    forall k' r', k < k' -> nth_error u k' = Some r' -> P r' = false.
Proof.
  induction u as [|x u IH] using rev_ind; intros r.
  - split; [discriminate|]. intros (k & Hk & _). destruct k; discriminate.
  - rewrite filter_app, rev_app_distr. simpl. destruct (P x) eqn:Ex; simpl.
    + split.
      * intros [= <-]. exists (length u). split; [rewrite nth_error_app2, Nat.sub_diag by lia; reflexivity|].
        split; [assumption|]. intros k' r' Hk Hr. rewrite nth_error_app2 in Hr by lia.
        destruct (k' - length u) eqn:E; [lia|]. destruct n; discriminate.
      * intros (k & Hk & HP & Hlast). destruct (Nat.lt_ge_cases k (length u)) as [Hlt|Hge].
        -- rewrite (Hlast (length u) x) in Ex; [discriminate|assumption|].
           rewrite nth_error_app2, Nat.sub_diag by lia. reflexivity.
        -- rewrite nth_error_app2 in Hk by assumption. destruct (k - length u) as [|[]]; try discriminate.
           exact Hk.
    + rewrite IH. split; intros (k & Hk & HP & Hlast).
      * exists k. assert (Hlt : k < length u) by (apply nth_error_Some; congruence).
        split; [now rewrite nth_error_app1|]. split; [assumption|]. intros k' r' Hk' Hr.
        destruct (Nat.lt_ge_cases k' (length u)) as [Hlt'|Hge].
        -- rewrite nth_error_app1 in Hr by assumption. eauto.
        -- rewrite nth_error_app2 in Hr by assumption. destruct (k' - length u) as [|[]]; try discriminate.
           injection Hr as <-. exact Ex.
      * assert (Hlt : k < length u).
        { destruct (Nat.lt_ge_cases k (length u)) as [|Hge]; [assumption|].
          rewrite nth_error_app2 in Hk by assumption. destruct (k - length u) as [|[]]; try discriminate.
          injection Hk as <-. congruence. }
        exists k. rewrite nth_error_app1 in Hk by assumption. split; [assumption|]. split; [assumption|].
        intros k' r' Hk' Hr. apply (Hlast k' r' Hk'). rewrite nth_error_app1; [assumption|].
        apply nth_error_Some. congruence.
Qed.

(** Row [k] is the last measurement row of its period. *)
Definition last_row (u : list urow) (k : nat) : Prop :=
  exists r, nth_error u k = Some r /\ is_measurement_row r = true /\
    forall k' r', k < k' -> nth_error u k' = Some r' -> u_period r' = u_period r ->
      is_measurement_row r' = false.

Lemma last_measurement_spec u t v :
  last_measurement u t = Ok v <->
  exists k r, nth_error u k = Some r /\ u_period r = t /\ u_var r = v /\ last_row u k.
Proof.
  unfold last_measurement.
  pose proof (hd_rev_filter (fun r => is_measurement_row r && (u_period r =? t)) u) as H.
  destruct (rev (filter (fun r => is_measurement_row r && (u_period r =? t)) u)) as [|r0 l].
  - split; [discriminate|]. intros (k & r & Hk & Ht & Hv & (r1 & Hk1 & Hm & Hlast)).
    rewrite Hk in Hk1. injection Hk1 as <-.
    enough (E : @None urow = Some r) by discriminate.
    apply (proj2 (H r)). exists k. split; [assumption|]. split.
    + rewrite Hm, Ht, Nat.eqb_refl. reflexivity.
    + intros k' r' Hk' Hr'. destruct (Nat.eqb_spec (u_period r') t) as [E|]; [|apply andb_false_r].
      rewrite (Hlast k' r' Hk' Hr') by congruence. reflexivity.
  - split.
    + intros [= <-]. destruct (proj1 (H r0) eq_refl) as (k & Hk & HP & Hlast).
      apply andb_true_iff in HP as [Hm Ht]. apply Nat.eqb_eq in Ht.
      exists k, r0. repeat (split; [assumption || reflexivity|]). exists r0. repeat (split; [assumption|]).
      intros k' r' Hk' Hr' Ep. specialize (Hlast k' r' Hk' Hr'). rewrite Ep, Ht, Nat.eqb_refl, andb_true_r in Hlast.
      exact Hlast.
    + intros (k & r & Hk & Ht & Hv & (r1 & Hk1 & Hm & Hlast)). rewrite Hk in Hk1. injection Hk1 as <-.
      assert (E : Some r0 = Some r).
      { apply (proj2 (H r)). exists k. split; [assumption|]. split.
        - rewrite Hm, Ht, Nat.eqb_refl. reflexivity.
        - intros k' r' Hk' Hr'. destruct (Nat.eqb_spec (u_period r') t) as [E|]; [|apply andb_false_r].
          rewrite (Hlast k' r' Hk' Hr') by congruence. reflexivity. }
      injection E as ->. congruence.
Qed.

Lemma last_row_exists u t : (exists r, In r u /\ is_measurement_row r = true /\ u_period r = t) ->
  exists k r, nth_error u k = Some r /\ u_period r = t /\ last_row u k.
Proof.
  intros (r & Hr & Hm & Ht).
  assert (Hin : In r (filter (fun r => is_measurement_row r && (u_period r =? t)) u)).
  { apply filter_In. split; [assumption|]. rewrite Hm, Ht, Nat.eqb_refl. reflexivity. }
  destruct (last_measurement u t) as [v|e] eqn:E.
  - apply last_measurement_spec in E as (k & r0 & Hk & Ht0 & _ & Hl). eauto.
  - unfold last_measurement in E.
    destruct (rev (filter (fun r => is_measurement_row r && (u_period r =? t)) u)) as [|x l] eqn:Er; [|discriminate].
    apply (f_equal (@rev _)) in Er. rewrite rev_involutive in Er. rewrite Er in Hin. destruct Hin.
Qed.

Section Keep.
  Variable u : list urow.
  Hypothesis Hkeys : NoDup (map u_key u).
  Hypothesis Hsorted : StronglySorted le (map u_period u).
  Hypothesis Hmeasured : forall r, In r u ->
    exists r', In r' u /\ is_measurement_row r' = true /\ u_period r' = u_period r.

  Lemma sorted_nth (l : list nat) : StronglySorted le l -> forall k k' a b, k < k' ->
    nth_error l k = Some a -> nth_error l k' = Some b -> a <= b.
  Proof.
    induction 1 as [|x l _ IH Hf]; intros k k' a b Hlt Ha Hb; [destruct k; discriminate|].
    destruct k' as [|k']; [lia|]. destruct k as [|k]; simpl in *.
    - injection Ha as <-. rewrite Forall_forall in Hf. apply Hf. now apply nth_error_In in Hb.
    - eapply IH; [|eassumption..]. lia.
  Qed.

  Lemma same_key_row k k' r r' : nth_error u k = Some r -> nth_error u k' = Some r' ->
    u_key r = u_key r' -> k = k'.
  Proof.
    intros Hk Hk' E. apply (proj1 (NoDup_nth_error _) Hkeys).
    - rewrite map_length. apply nth_error_Some. congruence.
    - rewrite (map_nth_error u_key _ _ Hk), (map_nth_error u_key _ _ Hk'). now rewrite E.
  Qed.

  Definition kept (k : nat) : bool :=
    match nth_error u k with
    | Some r => match last_measurement u (u_period r) with
                | Ok v => String.eqb (u_var r) v
                | Err _ => false
                end
    | None => false
    end.

  Lemma kept_spec k : kept k = true <-> last_row u k.
  Proof.
    unfold kept. destruct (nth_error u k) as [r|] eqn:Hk.
    - split.
      + destruct (last_measurement u (u_period r)) as [v|] eqn:E; [|discriminate].
        intros Hv. apply String.eqb_eq in Hv. apply last_measurement_spec in E as (k' & r' & Hk' & Hp & Hv' & Hl).
        assert (k = k') as ->; [|assumption]. eapply same_key_row; [eassumption..|]. unfold u_key. congruence.
      + intros Hl. assert (E : last_measurement u (u_period r) = Ok (u_var r)) by (apply last_measurement_spec; eauto 8).
        rewrite E. apply String.eqb_refl.
    - split; [discriminate|]. intros (r & Hr & _). congruence.
  Qed.

  Lemma filter_fst_enumerate (P : nat -> bool) (g : nat * urow -> nat * bool) :
    (forall k r, In (k, r) (enumerate u) -> g (k, r) = (k, P k)) ->
    map fst (filter snd (map g (enumerate u))) = filter P (range (length u)).
  Proof.
    intros H. rewrite (map_ext_in _ (fun kr => (fst kr, P (fst kr)))).
    2:{ intros [k r] Hin. apply H, Hin. }
    rewrite <- (map_fst_enumerate u). generalize (enumerate u). intros l. clear.
    induction l as [|[k r] l IH]; [reflexivity|]. simpl. destruct (P k); simpl; now rewrite IH.
  Qed.

  Lemma keep_updates_ok : keep_updates u = Ok (filter kept (range (length u))).
  Proof.
    unfold keep_updates.
    rewrite (mapM_ext _ (fun ku => Ok (fst ku, kept (fst ku)))).
    - rewrite mapM_Ok_map. cbn [rbind]. f_equal. apply filter_fst_enumerate. reflexivity.
    - intros [k r] Hin. apply In_enumerate in Hin. cbn [fst snd].
      destruct (last_row_exists u (u_period r) (Hmeasured r (nth_error_In _ _ Hin))) as (k' & r' & Hk' & Hp & Hl).
      assert (E : last_measurement u (u_period r) = Ok (u_var r')) by (apply last_measurement_spec; eauto 8).
      unfold kept. rewrite Hin, E. reflexivity.
  Qed.

  Definition period_at (k : nat) : nat := match nth_error u k with Some r => u_period r | None => 0 end.

  Lemma kept_increasing k k' : kept k = true -> kept k' = true -> k < k' -> period_at k < period_at k'.
  Proof.
    intros H H' Hlt. apply kept_spec in H as (r & Hr & Hm & Hlast), H' as (r' & Hr' & Hm' & Hlast').
    unfold period_at. rewrite Hr, Hr'.
    pose proof (sorted_nth _ Hsorted k k' (u_period r) (u_period r') Hlt
                  (map_nth_error u_period _ _ Hr) (map_nth_error u_period _ _ Hr')) as Hle.
    destruct (Nat.eq_dec (u_period r) (u_period r')) as [E|]; [|lia].
    rewrite (Hlast k' r' Hlt Hr' (eq_sym E)) in Hm'. discriminate.
  Qed.

  Lemma sorted_kept s m : StronglySorted lt (map period_at (filter kept (seq s m))).
  Proof.
    revert s. induction m as [|m IH]; intros s; simpl; [constructor|].
    destruct (kept s) eqn:Es; [|apply IH]. simpl. constructor; [apply IH|].
    rewrite Forall_forall. intros y Hy. apply in_map_iff in Hy as (k & <- & Hk).
    apply filter_In in Hk as [Hk Hkk]. apply in_seq in Hk. apply kept_increasing; [assumption..|lia].
  Qed.

  Lemma sorted_unique (l l' : list nat) : StronglySorted lt l -> StronglySorted lt l' ->
    (forall x, In x l <-> In x l') -> l = l'.
  Proof.
    revert l'. induction l as [|a l IH]; intros l' Hs Hs' H.
    - destruct l' as [|b l']; [reflexivity|]. exfalso. apply (H b). now left.
    - destruct l' as [|b l']. { exfalso. apply (H a). now left. }
      inversion_clear Hs as [|? ? H1 H2]. inversion_clear Hs' as [|? ? H3 H4].
      rewrite Forall_forall in H2, H4.
      assert (a = b) as ->.
      { destruct (proj1 (H a) (or_introl eq_refl)) as [|Ha]; [congruence|].
        destruct (proj2 (H b) (or_introl eq_refl)) as [|Hb]; [congruence|].
        specialize (H4 a Ha). specialize (H2 b Hb). lia. }
      f_equal. apply IH; [assumption..|]. intros x. specialize (H x). simpl in H. split; intros Hx.
      + destruct (proj1 H (or_intror Hx)) as [->|]; [|assumption]. specialize (H2 x Hx). lia.
      + destruct (proj2 H (or_intror Hx)) as [->|]; [|assumption]. specialize (H4 x Hx). lia.
  Qed.

  Lemma seq_sorted s m : StronglySorted lt (seq s m).
  Proof.
    revert s. induction m as [|m IH]; intros s; simpl; constructor; [apply IH|].
    rewrite Forall_forall. intros x Hx. apply in_seq in Hx. lia.
  Qed.

  (** If the periods of the rows are 0, ..., n - 1, the kept row number t is the last
      measurement of period t. *)
  Lemma kept_periods n : (forall t, t < n <-> exists r, In r u /\ u_period r = t) ->
    map period_at (filter kept (range (length u))) = range n.
  Proof.
    intros Hn. apply sorted_unique; [apply sorted_kept|apply seq_sorted|].
    intros t. unfold range. rewrite in_seq, in_map_iff. split.
    - intros (k & <- & Hk). apply filter_In in Hk as [_ Hk]. apply kept_spec in Hk as (r & Hr & _).
      unfold period_at. rewrite Hr. split; [lia|]. apply Hn. exists r. split; [|reflexivity]. now apply nth_error_In in Hr.
    - intros [_ Ht]. simpl in Ht. apply Hn in Ht as (r & Hr & <-).
      destruct (last_row_exists u (u_period r) (Hmeasured r Hr)) as (k & r' & Hk & Hp & Hl).
      exists k. unfold period_at. rewrite Hk. split; [assumption|]. apply filter_In. split.
      + apply in_seq. split; [lia|]. simpl. apply nth_error_Some. congruence.
      + apply kept_spec, Hl.
  Qed.
End Keep.

(** ** The tables *)

Lemma eqb_neq_false (a b : string) : a <> b -> String.eqb a b = false.
Proof. intros H. now apply String.eqb_neq. Qed.

Lemma smem_app_false s l l' : ~ In s l -> ~ In s l' -> smem s (l ++ l') = false.
Proof. intros H H'. apply smem_false. intros Hin. apply in_app_or in Hin as []; contradiction. Qed.

Section Tables.
  Variables (n_obs n_mixtures n_states : nat) (factors : list string).
  Hypothesis Hnd : NoDup factors.
  Hypothesis Hlen : length factors = n_states.

  Lemma filtered_states_table states logw u keep :
    keep_updates u = Ok keep -> keep <> [] -> ~ In "period" factors -> ~ In "id" factors ->
    exists tb, create_filtered_states n_obs n_mixtures n_states states logw u factors = Ok tb /\
      tb_columns tb = factors ++ ["period"; "id"] /\ length (tb_rows tb) = length keep * n_obs /\
      forall j k i, nth_error keep j = Some k -> i < n_obs -> exists row,
        nth_error (tb_rows tb) (j * n_obs + i) = Some row /\
        row "period" = CInt j /\ row "id" = CInt i /\
        forall q f, nth_error factors q = Some f ->
          row f = CNum (rsum n_mixtures (fun m => states k i m q * exp (logw k i m)))%R.
  Proof.
    intros Hk Hne Hp Hid. unfold create_filtered_states. rewrite Hk. cbn [rbind].
    match goal with |- context [mapM ?f (enumerate keep)] => set (part := f) end.
    assert (Hpart : forall x, exists g, part x = Ok (numbered (factors ++ ["period"; "id"]) n_obs g) /\
      forall i, g i "period" = CInt (fst x) /\ g i "id" = CInt i /\
        forall q f, nth_error factors q = Some f ->
          g i f = CNum (rsum n_mixtures (fun m => states (snd x) i m q * exp (logw (snd x) i m)))%R).
    { intros x. unfold part.
      destruct (data_frame_numbered n_obs n_states
        (fun i f => CNum (rsum n_mixtures (fun m => states (snd x) i m f * exp (logw (snd x) i m)))%R) factors Hlen)
        as (g & Eg & Hg).
      rewrite Eg. cbn [rbind]. rewrite !set_column_numbered.
      rewrite (proj2 (smem_false "period" factors) Hp).
      rewrite smem_app_false by (assumption || (simpl; intuition discriminate)).
      rewrite <- app_assoc. eexists. split; [reflexivity|]. intros i. cbn.
      split; [reflexivity|]. split; [reflexivity|]. intros q f Hq.
      assert (Hf : In f factors) by (now apply nth_error_In in Hq).
      rewrite !eqb_neq_false by (intros ->; contradiction). now rewrite (Hg Hnd i q f Hq). }
    destruct (concat_parts part (factors ++ ["period"; "id"]) n_obs (enumerate keep)) as (tb & E & Hc & Hl & Hr).
    { intros E. apply Hne. destruct keep; [reflexivity|discriminate]. }
    { intros x _. destruct (Hpart x) as (g & Eg & _). eauto. }
    exists tb. split; [exact E|]. split; [exact Hc|]. split; [rewrite Hl; now rewrite enumerate_length|].
    intros j k i Hj Hi. destruct (Hr j (j, k) i) as (g & Eg & Hrow); [|exact Hi|].
    { rewrite nth_error_enumerate, Hj. reflexivity. }
    destruct (Hpart (j, k)) as (g' & Eg' & Hg'). rewrite Eg in Eg'. injection Eg' as Eg'.
    exists (g i). split; [exact Hrow|].
    assert (Hsame : g i = g' i).
    { assert (Hn : nth_error (map g (range n_obs)) i = nth_error (map g' (range n_obs)) i) by now rewrite Eg'.
      rewrite !(map_nth_error _ _ _ (nth_error_range _ _ Hi)) in Hn. congruence. }
    rewrite Hsame. apply Hg'.
  Qed.

  (** One row per update, individual and mixture element. *)
  Lemma mixture_row i m : m < n_mixtures -> (i * n_mixtures + m) / n_mixtures = i /\ (i * n_mixtures + m) mod n_mixtures = m.
  Proof.
    clear Hnd Hlen. intros Hm. rewrite Nat.div_add_l by lia. rewrite Nat.div_small by exact Hm.
    rewrite (Nat.add_comm (i * n_mixtures) m), Nat.mod_add by lia. rewrite Nat.mod_small by exact Hm. lia.
  Qed.

  Lemma mixture_bound i m : i < n_obs -> m < n_mixtures -> i * n_mixtures + m < n_obs * n_mixtures.
  Proof. clear Hnd Hlen. intros. nia. Qed.

  Lemma residuals_table residuals u : u <> [] ->
    exists tb, process_residuals n_obs n_mixtures residuals u = Ok tb /\
      tb_columns tb = ["residual"; "mixture"; "period"; "id"; "measurement"] /\
      length (tb_rows tb) = length u * (n_obs * n_mixtures) /\
      forall k r i m, nth_error u k = Some r -> i < n_obs -> m < n_mixtures -> exists row,
        nth_error (tb_rows tb) (k * (n_obs * n_mixtures) + (i * n_mixtures + m)) = Some row /\
        row "residual" = match residuals k i m with Some x => CNum x | None => CNan end /\
        row "mixture" = CInt m /\ row "period" = CInt (u_period r) /\
        row "measurement" = CText (u_var r) /\ row "id" = CInt (i * n_mixtures + m).
  Proof.
    intros Hne. unfold process_residuals.
    assert (Hu : forall X (a b : X), match u with [] => a | _ :: _ => b end = b) by (destruct u; [congruence|reflexivity]).
    rewrite Hu.
    match goal with |- context [mapM ?f (enumerate u)] => set (part := f) end.
    assert (Hpart : forall x, exists g,
      part x = Ok (numbered ["residual"; "mixture"; "period"; "id"; "measurement"] (n_obs * n_mixtures) g) /\
      forall r, g r "residual" = (match residuals (fst x) (r / n_mixtures) (r mod n_mixtures) with
                                  | Some x => CNum x | None => CNan end) /\
        g r "mixture" = CInt (r mod n_mixtures) /\ g r "period" = CInt (u_period (snd x)) /\
        g r "measurement" = CText (u_var (snd x)) /\ g r "id" = CInt r).
    { intros x. unfold part.
      destruct (data_frame_numbered (n_obs * n_mixtures) 1
        (fun r (_ : nat) => match residuals (fst x) (r / n_mixtures) (r mod n_mixtures) with
                    | Some x => CNum x | None => CNan end) ["residual"] eq_refl) as (g & Eg & Hg).
      rewrite Eg. cbn [rbind]. rewrite !set_column_numbered. eexists. split; [reflexivity|].
      intros r. cbn. rewrite (Hg ltac:(repeat constructor; simpl; tauto) r 0 "residual" eq_refl). auto. }
    destruct (concat_parts part ["residual"; "mixture"; "period"; "id"; "measurement"] (n_obs * n_mixtures) (enumerate u))
      as (tb & E & Hc & Hl & Hr).
    { intros E. apply Hne. destruct u; [reflexivity|discriminate]. }
    { intros x _. destruct (Hpart x) as (g & Eg & _). eauto. }
    exists tb. split; [exact E|]. split; [exact Hc|]. split; [rewrite Hl; now rewrite enumerate_length|].
    intros k r i m Hk Hi Hm. destruct (Hr k (k, r) (i * n_mixtures + m)) as (g & Eg & Hrow);
      [|now apply mixture_bound|].
    { rewrite nth_error_enumerate, Hk. reflexivity. }
    destruct (Hpart (k, r)) as (g' & Eg' & Hg'). rewrite Eg in Eg'. injection Eg' as Eg'.
    exists (g (i * n_mixtures + m)). split; [exact Hrow|].
    assert (Hsame : g (i * n_mixtures + m) = g' (i * n_mixtures + m)).
    { assert (Hn : nth_error (map g (range (n_obs * n_mixtures))) (i * n_mixtures + m)
                   = nth_error (map g' (range (n_obs * n_mixtures))) (i * n_mixtures + m)) by now rewrite Eg'.
      rewrite !(map_nth_error _ _ _ (nth_error_range _ _ (mixture_bound i m Hi Hm))) in Hn. congruence. }
    rewrite Hsame. destruct (Hg' (i * n_mixtures + m)) as (H1 & H2 & H3 & H4 & H5).
    destruct (mixture_row i m Hm) as [E1 E2]. rewrite E1, E2 in *. auto.
  Qed.

  Lemma contributions_table contributions u : u <> [] ->
    exists tb, process_all_contributions n_obs contributions u = Ok tb /\
      tb_columns tb = ["contribution"; "measurement"; "period"; "id"] /\
      length (tb_rows tb) = length u * n_obs /\
      forall k r i, nth_error u k = Some r -> i < n_obs -> exists row,
        nth_error (tb_rows tb) (k * n_obs + i) = Some row /\
        row "contribution" = CNum (contributions k i) /\ row "period" = CInt (u_period r) /\
        row "measurement" = CText (u_var r) /\ row "id" = CInt i.
  Proof.
    intros Hne. unfold process_all_contributions.
    match goal with |- context [mapM ?f (enumerate u)] => set (part := f) end.
    assert (Hpart : forall x, exists g,
      part x = Ok (numbered ["contribution"; "measurement"; "period"; "id"] n_obs g) /\
      forall r, g r "contribution" = CNum (contributions (fst x) r) /\ g r "period" = CInt (u_period (snd x)) /\
        g r "measurement" = CText (u_var (snd x)) /\ g r "id" = CInt r).
    { intros x. unfold part.
      destruct (data_frame_numbered n_obs 1 (fun i (_ : nat) => CNum (contributions (fst x) i)) ["contribution"] eq_refl) as (g & Eg & Hg).
      rewrite Eg. cbn [rbind]. rewrite !set_column_numbered. eexists. split; [reflexivity|].
      intros r. cbn. rewrite (Hg ltac:(repeat constructor; simpl; tauto) r 0 "contribution" eq_refl). auto. }
    destruct (concat_parts part ["contribution"; "measurement"; "period"; "id"] n_obs (enumerate u))
      as (tb & E & Hc & Hl & Hr).
    { intros E. apply Hne. destruct u; [reflexivity|discriminate]. }
    { intros x _. destruct (Hpart x) as (g & Eg & _). eauto. }
    exists tb. split; [exact E|]. split; [exact Hc|]. split; [rewrite Hl; now rewrite enumerate_length|].
    intros k r i Hk Hi. destruct (Hr k (k, r) i) as (g & Eg & Hrow); [|assumption|].
    { rewrite nth_error_enumerate, Hk. reflexivity. }
    destruct (Hpart (k, r)) as (g' & Eg' & Hg'). rewrite Eg in Eg'. injection Eg' as Eg'.
    exists (g i). split; [exact Hrow|].
    assert (Hsame : g i = g' i).
    { assert (Hn : nth_error (map g (range n_obs)) i = nth_error (map g' (range n_obs)) i) by now rewrite Eg'.
      rewrite !(map_nth_error _ _ _ (nth_error_range _ _ Hi)) in Hn. congruence. }
    rewrite Hsame. apply Hg'.
  Qed.

  Lemma post_states_table states u : u <> [] ->
    (forall c, In c ["mixture"; "period"; "id"; "measurement"] -> ~ In c factors) ->
    exists tb, create_post_update_states n_obs n_mixtures n_states states factors u = Ok tb /\
      tb_columns tb = factors ++ ["mixture"; "period"; "id"; "measurement"] /\
      length (tb_rows tb) = length u * (n_obs * n_mixtures) /\
      forall k r i m, nth_error u k = Some r -> i < n_obs -> m < n_mixtures -> exists row,
        nth_error (tb_rows tb) (k * (n_obs * n_mixtures) + (i * n_mixtures + m)) = Some row /\
        (forall q f, nth_error factors q = Some f -> row f = CNum (states k i m q)) /\
        row "mixture" = CInt m /\ row "period" = CInt (u_period r) /\
        row "measurement" = CText (u_var r) /\ row "id" = CInt (i * n_mixtures + m).
  Proof.
    intros Hne Hres. unfold create_post_update_states.
    match goal with |- context [mapM ?f (enumerate u)] => set (part := f) end.
    assert (Hpart : forall x, exists g,
      part x = Ok (numbered (factors ++ ["mixture"; "period"; "id"; "measurement"]) (n_obs * n_mixtures) g) /\
      forall r, (forall q f, nth_error factors q = Some f ->
                   g r f = CNum (states (fst x) (r / n_mixtures) (r mod n_mixtures) q)) /\
        g r "mixture" = CInt (r mod n_mixtures) /\ g r "period" = CInt (u_period (snd x)) /\
        g r "measurement" = CText (u_var (snd x)) /\ g r "id" = CInt r).
    { intros x. unfold part, convert_state_array_to_df.
      destruct (data_frame_numbered (n_obs * n_mixtures) n_states
        (fun r f => CNum (states (fst x) (r / n_mixtures) (r mod n_mixtures) f)) factors Hlen) as (g & Eg & Hg).
      rewrite Eg. cbn [rbind]. rewrite !set_column_numbered.
      rewrite (proj2 (smem_false "mixture" factors)) by (apply Hres; simpl; tauto).
      rewrite (smem_app_false "period") by ((apply Hres; simpl; tauto) || (simpl; intuition discriminate)).
      rewrite <- ?app_assoc. cbn [app].
      rewrite (smem_app_false "id") by ((apply Hres; simpl; tauto) || (simpl; intuition discriminate)).
      rewrite <- ?app_assoc. cbn [app].
      rewrite (smem_app_false "measurement") by ((apply Hres; simpl; tauto) || (simpl; intuition discriminate)).
      rewrite <- ?app_assoc. cbn [app].
      eexists. split; [reflexivity|]. intros r. cbn. split; [|auto]. intros q f Hq.
      assert (Hf : In f factors) by (now apply nth_error_In in Hq).
      rewrite !eqb_neq_false by (intros ->; revert Hf; apply Hres; simpl; tauto). now rewrite (Hg Hnd r q f Hq). }
    destruct (concat_parts part (factors ++ ["mixture"; "period"; "id"; "measurement"]) (n_obs * n_mixtures) (enumerate u))
      as (tb & E & Hc & Hl & Hr).
    { intros E. apply Hne. destruct u; [reflexivity|discriminate]. }
    { intros x _. destruct (Hpart x) as (g & Eg & _). eauto. }
    exists tb. split; [exact E|]. split; [exact Hc|]. split; [rewrite Hl; now rewrite enumerate_length|].
    intros k r i m Hk Hi Hm. destruct (Hr k (k, r) (i * n_mixtures + m)) as (g & Eg & Hrow);
      [|now apply mixture_bound|].
    { rewrite nth_error_enumerate, Hk. reflexivity. }
    destruct (Hpart (k, r)) as (g' & Eg' & Hg'). rewrite Eg in Eg'. injection Eg' as Eg'.
    exists (g (i * n_mixtures + m)). split; [exact Hrow|].
    assert (Hsame : g (i * n_mixtures + m) = g' (i * n_mixtures + m)).
    { assert (Hn : nth_error (map g (range (n_obs * n_mixtures))) (i * n_mixtures + m)
                   = nth_error (map g' (range (n_obs * n_mixtures))) (i * n_mixtures + m)) by now rewrite Eg'.
      rewrite !(map_nth_error _ _ _ (nth_error_range _ _ (mixture_bound i m Hi Hm))) in Hn. congruence. }
    rewrite Hsame. destruct (Hg' (i * n_mixtures + m)) as (H1 & H2 & H3 & H4 & H5).
    destruct (mixture_row i m Hm) as [E1 E2].
    split; [|rewrite E2 in *; auto]. intros q f Hq. rewrite (H1 q f Hq), E1, E2. reflexivity.
  Qed.

  (** Without restrictions on the names of the factors. *)
  Lemma post_states_total states u : u <> [] ->
    exists tb, create_post_update_states n_obs n_mixtures n_states states factors u = Ok tb.
  Proof.
    intros Hne. unfold create_post_update_states.
    match goal with |- context [mapM ?f (enumerate u)] => set (part := f) end.
    destruct (mapM_total part (enumerate u)) as [ts Hts].
    { intros x _. unfold part, convert_state_array_to_df.
      destruct (data_frame_numbered (n_obs * n_mixtures) n_states
        (fun r f => CNum (states (fst x) (r / n_mixtures) (r mod n_mixtures) f)) factors Hlen) as (g & Eg & _).
      rewrite Eg. cbn [rbind]. eauto. }
    rewrite Hts. cbn [rbind]. apply mapM_length in Hts. rewrite enumerate_length in Hts.
    destruct ts; [|simpl; eauto]. destruct u; [congruence|discriminate].
  Qed.
End Tables.

(** ** Ranges *)

Lemma In_ninsert x y l : In y (ninsert x l) <-> y = x \/ In y l.
Proof.
  induction l as [|z l IH]; simpl; [intuition|].
  destruct (Nat.eqb_spec x z) as [->|]; simpl; [intuition|].
  destruct (x <? z); simpl; [intuition|]. rewrite IH. intuition.
Qed.

Lemma sorted_ninsert x l : StronglySorted lt l -> StronglySorted lt (ninsert x l).
Proof.
  induction 1 as [|z l Hs IH Hf]; simpl; [repeat constructor|].
  destruct (Nat.eqb_spec x z) as [->|]; [now constructor|].
  destruct (Nat.ltb_spec x z).
  - constructor; [now constructor|]. constructor; [assumption|]. rewrite Forall_forall in *.
    intros y Hy. specialize (Hf y Hy). lia.
  - constructor; [assumption|]. rewrite Forall_forall in *. intros y Hy. apply In_ninsert in Hy as [->|Hy]; [lia|auto].
Qed.

Lemma In_nsort x l : In x (nsort_unique l) <-> In x l.
Proof. induction l as [|y l IH]; simpl; [tauto|]. rewrite In_ninsert, IH. intuition. Qed.

Lemma sorted_nsort l : StronglySorted lt (nsort_unique l).
Proof. induction l as [|y l IH]; simpl; [constructor|]. now apply sorted_ninsert. Qed.

Lemma pd_min_spec l : is_minimum l (pd_min l).
Proof.
  induction l as [|c l IH]; simpl.
  - intros x (c & [] & _).
  - unfold is_minimum, in_cells in *. destruct (number_of c) as [a|] eqn:Ec, (pd_min l) as [b|]; cbn [skip_nan].
    + destruct IH as ((cb & Hcb & Eb) & Hb). split.
      * unfold Rmin. destruct (Rle_dec a b); [exists c|exists cb]; simpl; auto.
      * intros x (d & [->|Hd] & Ex).
        -- rewrite Ec in Ex. injection Ex as <-. apply Rmin_l.
        -- eapply Rle_trans; [apply Rmin_r|]. apply Hb. eauto.
    + split; [exists c; simpl; auto|]. intros x (d & [->|Hd] & Ex); [rewrite Ec in Ex; injection Ex as <-; lra|].
      exfalso. apply (IH x). eauto.
    + destruct IH as ((cb & Hcb & Eb) & Hb). split; [exists cb; simpl; auto|].
      intros x (d & [->|Hd] & Ex); [congruence|eauto].
    + intros x (d & [->|Hd] & Ex); [congruence|]. apply (IH x). eauto.
Qed.

Lemma pd_max_spec l : is_maximum l (pd_max l).
Proof.
  induction l as [|c l IH]; simpl.
  - intros x (c & [] & _).
  - unfold is_maximum, in_cells in *. destruct (number_of c) as [a|] eqn:Ec, (pd_max l) as [b|]; cbn [skip_nan].
    + destruct IH as ((cb & Hcb & Eb) & Hb). split.
      * unfold Rmax. destruct (Rle_dec a b); [exists cb|exists c]; simpl; auto.
      * intros x (d & [->|Hd] & Ex).
        -- rewrite Ec in Ex. injection Ex as <-. apply Rmax_l.
        -- eapply Rle_trans; [|apply Rmax_r]. apply Hb. eauto.
    + split; [exists c; simpl; auto|]. intros x (d & [->|Hd] & Ex); [rewrite Ec in Ex; injection Ex as <-; lra|].
      exfalso. apply (IH x). eauto.
    + destruct IH as ((cb & Hcb & Eb) & Hb). split; [exists cb; simpl; auto|].
      intros x (d & [->|Hd] & Ex); [congruence|eauto].
    + intros x (d & [->|Hd] & Ex); [congruence|]. apply (IH x). eauto.
Qed.
