(** Lemmas about [process_model]. *)
Require Import String Arith ZArith QArith Bool List Lia Permutation Sorted.
From Verif Require Import PyBase ListFacts ModelSpec ProcessModel CheckModel SpecModel.
Import ListNotations.
Open Scope string_scope.
Open Scope list_scope.
Open Scope nat_scope.

Definition key_eq_dec (x y : nat * string) : {x = y} + {x <> y}.
Proof. decide equality; [apply string_dec | apply Nat.eq_dec]. Defined.
Arguments key_eq_dec : simpl never.

(** ** Dimensions *)

Lemma fold_max_ge l x : x <= fold_left Nat.max l x.
Proof.
  revert x. induction l as [|y l IH]; intros x; simpl; [lia|].
  specialize (IH (Nat.max x y)). lia.
Qed.

Lemma fold_max_ge_in l x y : In y l -> y <= fold_left Nat.max l x.
Proof.
  revert x. induction l as [|z l IH]; intros x; simpl; [tauto|].
  intros [->|H]; [|now apply IH]. pose proof (fold_max_ge l (Nat.max x y)). lia.
Qed.

Lemma fold_max_in l x : In (fold_left Nat.max l x) (x :: l).
Proof.
  revert x. induction l as [|z l IH]; intros x; simpl; [now left|].
  destruct (IH (Nat.max x z)) as [H|H]; [|now (right; right)].
  rewrite <- H. destruct (Nat.max_spec x z) as [[_ E]|[_ E]]; rewrite E; auto.
Qed.

Lemma py_max_ok l n : py_max l = Ok n <-> In n l /\ forall x, In x l -> x <= n.
Proof.
  destruct l as [|x l]; simpl.
  - split; [discriminate|]. intros [[] _].
  - split.
    + intros [= <-]. split; [apply fold_max_in|].
      intros y [->|H]; [apply fold_max_ge | now apply fold_max_ge_in].
    + intros [Hin Hle]. f_equal.
      assert (fold_left Nat.max l x <= n) as H1.
      { apply Hle. apply (fold_max_in l x). }
      assert (n <= fold_left Nat.max l x) as H2.
      { destruct Hin as [->|Hin]; [apply fold_max_ge | now apply fold_max_ge_in]. }
      lia.
Qed.

Lemma get_dimensions_ok md d :
  get_dimensions md = Ok d <->
  exists o, md_options md = Some o /\ has_n_periods md (n_periods d) /\
    d = mk_dims (length (md_factors md)) (length (observed_of md)) (n_periods d)
          (length (controls_of md) + 1) (n_mixtures_of md).
Proof.
  unfold get_dimensions. split.
  - intros H. apply rbind_ok in H. destruct H as [np [Hm H]].
    destruct (md_options md) as [o|] eqn:Eo; [|discriminate].
    injection H as <-. exists o. split; [reflexivity|].
    apply py_max_ok in Hm. destruct Hm as [Hin Hle]. split.
    + split.
      * apply in_map_iff in Hin. destruct Hin as [fs [He Hin]].
        apply in_map_iff in Hin. destruct Hin as [[f fs'] [He' Hin]].
        simpl in He'. subst fs'. exists f, fs. now split.
      * intros f fs Hin'. apply Hle. simpl.
        apply in_map_iff. exists fs. split; [reflexivity|].
        apply in_map_iff. now exists (f, fs).
    + unfold observed_of, controls_of, n_mixtures_of, get_default. now rewrite Eo.
  - intros [o [Eo [[[f [fs [Hin Hlen]]] Hle] Hd]]]. rewrite Eo.
    assert (py_max (map (fun d0 => length (fs_measurements d0)) (dvalues (md_factors md)))
            = Ok (n_periods d)) as ->.
    { apply py_max_ok. split.
      - apply in_map_iff. exists fs. split; [exact Hlen|].
        apply in_map_iff. now exists (f, fs).
      - intros x Hx. apply in_map_iff in Hx. destruct Hx as [fs' [<- Hx]].
        apply in_map_iff in Hx. destruct Hx as [[f' fs''] [E Hx]]. simpl in E. subst.
        eapply Hle. exact Hx. }
    simpl. rewrite Hd at 2. unfold observed_of, controls_of, n_mixtures_of, get_default.
    now rewrite Eo.
Qed.

(** ** Inversion of [process_model] *)

Lemma process_model_inv md p :
  process_model md = Ok p ->
  get_dimensions md = Ok (p_dims p) /\
  p_labels p = get_labels md (p_dims p) /\
  p_anch p = process_anchoring md /\
  p_options p = process_estimation_options md /\
  check_model md (p_labels p) (p_dims p) = Ok tt /\
  get_transition_info md (p_labels p) = Ok (p_tinfo p) /\
  get_update_info md (p_dims p) (p_labels p) (p_anch p) = Ok (p_update p) /\
  process_normalizations md (p_dims p) (p_labels p) = Ok (p_norms p).
Proof.
  unfold process_model. intros H.
  apply rbind_ok in H. destruct H as [d [Hd H]].
  apply rbind_ok in H. destruct H as [[] [Hc H]].
  apply rbind_ok in H. destruct H as [t [Ht H]].
  apply rbind_ok in H. destruct H as [u [Hu H]].
  apply rbind_ok in H. destruct H as [n [Hn H]].
  injection H as <-. simpl. auto 10.
Qed.

Lemma process_model_intro md d t u n :
  get_dimensions md = Ok d ->
  check_model md (get_labels md d) d = Ok tt ->
  get_transition_info md (get_labels md d) = Ok t ->
  get_update_info md d (get_labels md d) (process_anchoring md) = Ok u ->
  process_normalizations md d (get_labels md d) = Ok n ->
  process_model md = Ok (mk_processed d (get_labels md d) (process_anchoring md)
                           (process_estimation_options md) t u n).
Proof.
  unfold process_model. intros -> H2 H3 H4 H5. simpl. rewrite H2. simpl.
  rewrite H3. simpl. rewrite H4. simpl. rewrite H5. reflexivity.
Qed.

Lemma l_latent_eq md p : process_model md = Ok p -> l_latent (p_labels p) = latent_of md.
Proof.
  intros H. apply process_model_inv in H. destruct H as [_ [-> _]]. reflexivity.
Qed.

Lemma a_outcomes_eq md : a_outcomes (process_anchoring md) = outcomes_of md.
Proof.
  unfold process_anchoring, outcomes_of, get_default.
  destruct (md_anchoring md) as [a|]; [|reflexivity].
  destruct (as_outcomes a); reflexivity.
Qed.

Lemma anchored_outcomes md f o : anchored md f o <-> In (f, o) (outcomes_of md).
Proof.
  unfold anchored, outcomes_of. split.
  - intros [a [outs [-> [-> H]]]]. exact H.
  - destruct (md_anchoring md) as [a|]; [|intros []].
    destruct (as_outcomes a) as [outs|] eqn:E; [|intros []]. intros H.
    exists a, outs. auto.
Qed.

(** ** The table of updates *)

(** One call of [add_update]. *)
Definition event := (nat * string * string * purpose)%type. (* period, factor, variable *)
Definition ev_key (e : event) : nat * string := (fst (fst (fst e)), snd (fst e)).
Definition apply_event (u : list urow) (e : event) : list urow :=
  let '(p, f, v, pu) := e in add_update p f v pu u.

Definition events (md : model_dict) (n : nat) : list event :=
  flat_map (fun p =>
    flat_map (fun ffs => map (fun v => (p, fst ffs, v, PMeasurement))
                             (nth p (fs_measurements (snd ffs)) [])) (md_factors md)
    ++ map (fun fo => (p, fst fo, anchoring_name (snd fo) (fst fo), PAnchoring))
           (outcomes_of md)) (range n).

Lemma fill_list_ok {A} (l : list A) x n :
  length l <= n -> fill_list l x n = Ok (l ++ repeat x (n - length l)).
Proof. intros H. unfold fill_list. apply Nat.leb_le in H. now rewrite H. Qed.

Lemma fill_list_inv {A} (l : list A) x n r :
  fill_list l x n = Ok r -> length l <= n /\ r = l ++ repeat x (n - length l).
Proof.
  unfold fill_list. destruct (length l <=? n) eqn:E; [|discriminate].
  intros [= <-]. apply Nat.leb_le in E. auto.
Qed.

Lemma nth_app_repeat {A} (l : list A) x k i : nth i (l ++ repeat x k) x = nth i l x.
Proof.
  destruct (Nat.lt_ge_cases i (length l)) as [H|H].
  - now rewrite app_nth1.
  - rewrite app_nth2 by exact H. rewrite (nth_overflow l x) by exact H. apply nth_repeat.
Qed.

Lemma filled_measurements md n :
  NoDup (map fst (md_factors md)) -> (forall f fs, In (f, fs) (md_factors md) ->
      length (fs_measurements fs) <= n) ->
  mapM (fun f =>
      do fs <- dget_err (md_factors md) f;
      do filled <- fill_list (fs_measurements fs) [] n;
      Ok (f, filled)) (latent_of md)
  = Ok (map (fun ffs => (fst ffs, fs_measurements (snd ffs)
                           ++ repeat [] (n - length (fs_measurements (snd ffs)))))
            (md_factors md)).
Proof.
  intros Hnd Hle. unfold latent_of. rewrite mapM_map.
  rewrite <- mapM_Ok_map. apply mapM_ext.
  intros [f fs] Hin. simpl. unfold dget_err.
  rewrite (In_dget _ _ _ Hnd Hin). simpl.
  rewrite fill_list_ok by (eapply Hle; exact Hin). reflexivity.
Qed.

Lemma get_update_info_events md d :
  wf_dicts md -> has_n_periods md (n_periods d) ->
  get_update_info md d (get_labels md d) (process_anchoring md)
  = Ok (fold_left apply_event (events md (n_periods d)) []).
Proof.
  intros [Hnd _] [_ Hle]. unfold get_update_info.
  change (l_latent (get_labels md d)) with (latent_of md).
  rewrite (filled_measurements md (n_periods d) Hnd Hle). simpl. f_equal.
  unfold events. rewrite <- fold_left_flat_map. apply fold_left_ext_in.
  intros p u _. rewrite fold_left_app. rewrite a_outcomes_eq.
  rewrite <- (fold_left_map apply_event).
  match goal with |- fold_left _ _ ?a = fold_left _ _ ?b => assert (a = b) as -> end;
    [|apply fold_left_ext_in; reflexivity].
  rewrite <- fold_left_flat_map. rewrite <- fold_left_map.
  apply fold_left_ext_in. intros [f fs] u' _. simpl.
  rewrite nth_app_repeat. rewrite <- fold_left_map. reflexivity.
Qed.

Lemma key_eqb_spec p v r : key_eqb p v r = true <-> u_key r = (p, v).
Proof.
  unfold key_eqb, u_key. rewrite andb_true_iff, Nat.eqb_eq, String.eqb_eq.
  split; [intros [-> ->]; reflexivity | intros [= -> ->]; auto].
Qed.

Lemma key_eqb_false p v r : key_eqb p v r = false <-> u_key r <> (p, v).
Proof. rewrite <- key_eqb_spec. destruct (key_eqb p v r); split; congruence. Qed.

(** Effect of [add_update] in one step. *)
Definition upd_event (f : string) (pu : purpose) (r : urow) : urow :=
  mk_urow (u_period r) (u_var r) (f :: u_true r) (Some pu).

Lemma add_update_eq p f v pu u :
  add_update p f v pu u = loc_set u p v (upd_event f pu).
Proof.
  unfold add_update, loc_set at 2 3. destruct (existsb (key_eqb p v) u) eqn:E.
  - unfold loc_set.
    assert (existsb (key_eqb p v)
              (map (fun r => if key_eqb p v r then set_true f r else r) u) = true) as ->.
    { apply existsb_exists in E. destruct E as [r [Hin Hk]].
      apply existsb_exists. exists (set_true f r). split.
      - apply in_map_iff. exists r. now rewrite Hk.
      - exact Hk. }
    rewrite map_map. apply map_ext. intros r.
    destruct (key_eqb p v r) eqn:Ek; [|now rewrite Ek].
    assert (key_eqb p v (set_true f r) = true) as -> by exact Ek. reflexivity.
  - unfold loc_set. rewrite existsb_app. simpl.
    assert (key_eqb p v (set_true f (mk_urow p v [] None)) = true) as ->.
    { apply key_eqb_spec. reflexivity. }
    rewrite orb_true_r. simpl. rewrite map_app. simpl.
    assert (key_eqb p v (set_true f (mk_urow p v [] None)) = true) as ->.
    { apply key_eqb_spec. reflexivity. }
    f_equal. transitivity (map (fun r : urow => r) u); [|apply map_id].
    apply map_ext_in. intros r Hr.
    destruct (key_eqb p v r) eqn:Ek; [|reflexivity].
    assert (existsb (key_eqb p v) u = true); [|congruence].
    apply existsb_exists. eauto.
Qed.

Lemma existsb_key p v u : existsb (key_eqb p v) u = true <-> In (p, v) (map u_key u).
Proof.
  rewrite existsb_exists, in_map_iff. split.
  - intros [r [Hin Hk]]. apply key_eqb_spec in Hk. eauto.
  - intros [r [Hk Hin]]. exists r. split; [exact Hin|]. now apply key_eqb_spec.
Qed.

Lemma keys_loc_set p v f pu u :
  map u_key (loc_set u p v (upd_event f pu)) =
  if in_dec key_eq_dec (p, v) (map u_key u) then map u_key u else map u_key u ++ [(p, v)].
Proof.
  unfold loc_set. destruct (existsb (key_eqb p v) u) eqn:E.
  - apply existsb_key in E. destruct (in_dec key_eq_dec (p, v) (map u_key u)); [|contradiction].
    rewrite map_map. apply map_ext. intros r. destruct (key_eqb p v r); reflexivity.
  - destruct (in_dec key_eq_dec (p, v) (map u_key u)) as [Hi|Hi].
    + apply existsb_key in Hi. congruence.
    + rewrite map_app. reflexivity.
Qed.

Lemma first_appearances_snoc {A} (dec : forall x y : A, {x = y} + {x <> y}) l x :
  first_appearances dec (l ++ [x]) =
  if in_dec dec x l then first_appearances dec l else first_appearances dec l ++ [x].
Proof.
  assert (first_appearances dec (l ++ [x]) = first_appearances dec l /\ In x l \/
          first_appearances dec (l ++ [x]) = first_appearances dec l ++ [x] /\ ~ In x l) as H.
  { induction l as [|y l IH]; simpl; [right; auto|].
    destruct IH as [[-> Hin]|[-> Hni]]; [auto|].
    rewrite filter_app. simpl. destruct (dec y x) as [->|Hne].
    - left. rewrite app_nil_r. auto.
    - right. split; [reflexivity|]. intros [->|Hin]; auto. }
  destruct (in_dec dec x l); destruct H as [[H ?]|[H ?]]; tauto.
Qed.

Lemma In_first_appearances {A} (dec : forall x y : A, {x = y} + {x <> y}) l x :
  In x (first_appearances dec l) <-> In x l.
Proof.
  induction l as [|y l IH]; simpl; [tauto|].
  rewrite filter_In, IH. destruct (dec y x) as [->|Hne]; intuition congruence.
Qed.

Lemma NoDup_first_appearances {A} (dec : forall x y : A, {x = y} + {x <> y}) l :
  NoDup (first_appearances dec l).
Proof.
  induction l as [|y l IH]; simpl; [constructor|]. constructor.
  - rewrite filter_In. intros [_ H]. destruct (dec y y); congruence.
  - now apply NoDup_filter.
Qed.

Definition table (evs : list event) : list urow := fold_left apply_event evs [].

Lemma table_snoc evs e : table (evs ++ [e]) = apply_event (table evs) e.
Proof. unfold table. now rewrite fold_left_app. Qed.

Lemma apply_event_eq u p f v pu :
  apply_event u (p, f, v, pu) = loc_set u p v (upd_event f pu).
Proof. simpl. apply add_update_eq. Qed.

Lemma table_keys evs :
  map u_key (table evs) = first_appearances key_eq_dec (map ev_key evs).
Proof.
  induction evs as [|e evs IH] using rev_ind; [reflexivity|].
  rewrite table_snoc. destruct e as [[[p f] v] pu]. rewrite apply_event_eq.
  rewrite keys_loc_set, map_app. simpl. rewrite first_appearances_snoc.
  assert (forall k, In k (map u_key (table evs)) <-> In k (map ev_key evs)) as Heq.
  { intros k. rewrite IH. apply In_first_appearances. }
  change (ev_key (p, f, v, pu)) with (p, v).
  destruct (in_dec key_eq_dec (p, v) (map u_key (table evs))) as [H1|H1];
    destruct (in_dec key_eq_dec (p, v) (map ev_key evs)) as [H2|H2].
  - exact IH.
  - exfalso. apply H2. now apply Heq.
  - exfalso. apply H1. now apply Heq.
  - now rewrite IH.
Qed.

Lemma NoDup_table_keys evs : NoDup (map u_key (table evs)).
Proof. rewrite table_keys. apply NoDup_first_appearances. Qed.

(** The flags of a row are exactly the factors of its events, its purpose is the
    purpose of its last event. *)
Definition last_purpose (evs : list event) (k : nat * string) : option purpose :=
  fold_left (fun acc e => if key_eq_dec (ev_key e) k then Some (snd e) else acc) evs None.

Lemma last_purpose_snoc evs e k :
  last_purpose (evs ++ [e]) k =
  if key_eq_dec (ev_key e) k then Some (snd e) else last_purpose evs k.
Proof. unfold last_purpose. now rewrite fold_left_app. Qed.

Lemma last_purpose_none evs k : last_purpose evs k = None <-> ~ In k (map ev_key evs).
Proof.
  induction evs as [|e evs IH] using rev_ind; [simpl; tauto|].
  rewrite last_purpose_snoc, map_app, in_app_iff. simpl.
  destruct (key_eq_dec (ev_key e) k) as [E|E].
  - split; [intros H; discriminate H|]. intros H. exfalso. apply H. auto.
  - rewrite IH. intuition.
Qed.

Lemma In_loc_set r u p v upd :
  In r (loc_set u p v upd) ->
  (In r u /\ key_eqb p v r = false) \/
  (exists r0, In r0 u /\ key_eqb p v r0 = true /\ r = upd r0) \/
  ((forall r0, In r0 u -> key_eqb p v r0 = false) /\ r = upd (mk_urow p v [] None)).
Proof.
  unfold loc_set. destruct (existsb (key_eqb p v) u) eqn:E.
  - intros H. apply in_map_iff in H. destruct H as [r0 [He Hin]].
    destruct (key_eqb p v r0) eqn:Ek; subst r; [right; left; eauto | left; auto].
  - assert (forall r0, In r0 u -> key_eqb p v r0 = false) as Hall.
    { intros r0 Hr0. destruct (key_eqb p v r0) eqn:Ek; [|reflexivity].
      assert (existsb (key_eqb p v) u = true) by (apply existsb_exists; eauto). congruence. }
    rewrite in_app_iff. simpl. intros [Hin|[<-|[]]]; [left; auto | right; right; auto].
Qed.

Lemma table_row evs r :
  In r (table evs) ->
  (forall f, In f (u_true r) <-> exists pu, In (u_period r, f, u_var r, pu) evs) /\
  u_purpose r = last_purpose evs (u_key r).
Proof.
  revert r. induction evs as [|e evs IH] using rev_ind; intros r; [intros []|].
  rewrite table_snoc. destruct e as [[[p f0] v] pu0]. rewrite apply_event_eq.
  intros H. rewrite last_purpose_snoc. unfold ev_key at 1. simpl.
  apply In_loc_set in H. destruct H as [[Hin Hk]|[[r0 [Hin [Hk ->]]]|[Hall ->]]].
  - apply key_eqb_false in Hk. destruct (IH r Hin) as [IH1 IH2].
    destruct (key_eq_dec (p, v) (u_key r)) as [E|E]; [congruence|].
    split; [|exact IH2].
    intros f. rewrite IH1. split; intros [pu Hpu]; exists pu.
    + apply in_app_iff. now left.
    + apply in_app_iff in Hpu. destruct Hpu as [Hpu|[Hpu|[]]]; [exact Hpu|].
      injection Hpu as H1 H2 H3 H4. exfalso. apply E. unfold u_key. congruence.
  - apply key_eqb_spec in Hk. destruct (IH r0 Hin) as [IH1 IH2].
    unfold u_key in Hk. injection Hk as Hp Hv. simpl.
    split.
    + intros f. rewrite IH1. split.
      * intros [<-|[pu Hpu]].
        -- exists pu0. apply in_app_iff. right. left. congruence.
        -- exists pu. apply in_app_iff. now left.
      * intros [pu Hpu]. apply in_app_iff in Hpu. destruct Hpu as [Hpu|[Hpu|[]]].
        -- right. eauto.
        -- left. congruence.
    + unfold u_key. simpl. destruct (key_eq_dec (p, v) (u_period r0, u_var r0)); [reflexivity|].
      congruence.
  - simpl. split.
    + intros f. split.
      * intros [<-|[]]. exists pu0. apply in_app_iff. right. now left.
      * intros [pu Hpu]. apply in_app_iff in Hpu. destruct Hpu as [Hpu|[Hpu|[]]].
        -- exfalso. assert (In (p, v) (map ev_key evs)) as Hi.
           { apply in_map_iff. eexists. split; [|exact Hpu]. reflexivity. }
           rewrite <- (In_first_appearances key_eq_dec) in Hi. rewrite <- table_keys in Hi.
           apply in_map_iff in Hi. destruct Hi as [r0 [Hk Hr0]].
           apply key_eqb_spec in Hk. rewrite (Hall r0 Hr0) in Hk. discriminate.
        -- left. congruence.
    + unfold u_key. simpl. destruct (key_eq_dec (p, v) (p, v)); [reflexivity | congruence].
Qed.

(** ** The processed table in terms of the specification *)

Lemma process_update_table md p :
  wf_dicts md -> process_model md = Ok p ->
  p_update p = table (events md (n_periods (p_dims p))) /\
  has_n_periods md (n_periods (p_dims p)).
Proof.
  intros Hwf H. apply process_model_inv in H.
  destruct H as [Hd [Hl [Ha [_ [_ [_ [Hu _]]]]]]].
  apply get_dimensions_ok in Hd. destruct Hd as [o [Ho [Hn Hd]]].
  rewrite Hl, Ha, get_update_info_events in Hu by assumption.
  injection Hu as <-. auto.
Qed.

Lemma has_n_periods_fun md n m : has_n_periods md n -> has_n_periods md m -> n = m.
Proof.
  intros [[f [fs [Hin Hl]]] Hle] [[f' [fs' [Hin' Hl']]] Hle'].
  specialize (Hle _ _ Hin'). specialize (Hle' _ _ Hin). lia.
Qed.

Lemma In_events md n p f v pu :
  has_n_periods md n ->
  In (p, f, v, pu) (events md n) <->
  (pu = PMeasurement /\ measures md p f v) \/ (pu = PAnchoring /\ anchors md p f v).
Proof.
  intros Hn. unfold events. rewrite in_flat_map. split.
  - intros [p' [Hp H]]. apply In_range in Hp. apply in_app_iff in H.
    destruct H as [H|H].
    + left. apply in_flat_map in H. destruct H as [[f' fs] [Hin H]].
      apply in_map_iff in H. destruct H as [v' [He Hv]].
      injection He as -> -> -> <-. split; [reflexivity|].
      simpl in *.
      destruct (nth_error (fs_measurements fs) p) as [ms|] eqn:E.
      * exists fs, ms. rewrite (nth_of_nth_error _ _ _ _ E) in Hv. auto.
      * apply nth_error_None in E. rewrite nth_overflow in Hv by exact E. destruct Hv.
    + right. apply in_map_iff in H. destruct H as [[f' o] [He Hin]].
      injection He as -> -> <- <-. split; [reflexivity|].
      split; [eauto|]. exists o. split; [|reflexivity]. now apply anchored_outcomes.
  - intros [[-> [fs [ms [Hin [Hms Hv]]]]]|[-> [[m [Hm Hp]] [o [Ho ->]]]]].
    + exists p. split.
      * apply In_range. destruct Hn as [_ Hle]. specialize (Hle _ _ Hin).
        assert (p < length (fs_measurements fs)); [|lia].
        apply nth_error_Some. congruence.
      * apply in_app_iff. left. apply in_flat_map. exists (f, fs). split; [exact Hin|].
        apply in_map_iff. exists v. split; [reflexivity|]. simpl.
        now rewrite (nth_of_nth_error _ _ _ _ Hms).
    + assert (m = n) as -> by (eapply has_n_periods_fun; eassumption).
      exists p. split; [now apply In_range|]. apply in_app_iff. right.
      apply in_map_iff. exists (f, o). split; [reflexivity|]. now apply anchored_outcomes.
Qed.

Lemma events_keys md n : map ev_key (events md n) = written_equations md n.
Proof.
  unfold events, written_equations. rewrite map_flat_map. unfold range.
  apply flat_map_ext_in. intros p _. rewrite !map_app. f_equal.
  - rewrite !map_flat_map. apply flat_map_ext_in. intros [f fs] _.
    rewrite !map_map. reflexivity.
  - rewrite map_map. unfold outcomes_of.
    destruct (md_anchoring md) as [a|]; [|reflexivity].
    destruct (as_outcomes a); [|reflexivity]. rewrite map_map. reflexivity.
Qed.

Lemma written_equations_sorted md n :
  StronglySorted (fun a b => fst a <= fst b) (written_equations md n).
Proof.
  unfold written_equations.
  assert (forall s k (h : nat -> list string),
    StronglySorted (fun a b : nat * string => fst a <= fst b)
      (flat_map (fun p => map (fun v => (p, v)) (h p)) (seq s k))) as H.
  { intros s k h. revert s. induction k as [|k IH]; intros s; simpl; [constructor|].
    induction (h s) as [|x l IHl]; simpl; [apply IH|].
    constructor; [exact IHl|]. apply Forall_app. split.
    - apply Forall_forall. intros y Hy. apply in_map_iff in Hy.
      destruct Hy as [z [<- _]]. simpl. lia.
    - apply Forall_forall. intros y Hy. apply in_flat_map in Hy.
      destruct Hy as [q [Hq Hy]]. apply in_map_iff in Hy. destruct Hy as [z [<- _]].
      apply in_seq in Hq. simpl. lia. }
  apply (H 0 n).
Qed.

Lemma StronglySorted_filter {A} (R : A -> A -> Prop) P l :
  StronglySorted R l -> StronglySorted R (filter P l).
Proof.
  induction 1 as [|x l Hs IH Hf]; simpl; [constructor|].
  destruct (P x); [|exact IH]. constructor; [exact IH|].
  apply Forall_forall. intros y Hy. apply filter_In in Hy.
  rewrite Forall_forall in Hf. apply Hf. tauto.
Qed.

Lemma first_appearances_sorted {A} dec (R : A -> A -> Prop) l :
  StronglySorted R l -> StronglySorted R (first_appearances dec l).
Proof.
  induction 1 as [|x l Hs IH Hf]; simpl; [constructor|].
  constructor; [now apply StronglySorted_filter|].
  apply Forall_forall. intros y Hy. apply filter_In in Hy. destruct Hy as [Hy _].
  apply In_first_appearances in Hy. rewrite Forall_forall in Hf. auto.
Qed.
