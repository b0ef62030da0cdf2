(** Lemmas for the properties about processing a specification. *)
Require Import String Ascii Arith ZArith QArith Bool List Lia Sorted.
From Verif Require Import PyBase ListFacts StringFacts ModelSpec ProcessModel CheckModel SpecModel
  ProcessModelFacts AcceptFacts ParamsIndex SpecIndex IndexFacts.
Import ListNotations.
Open Scope string_scope.
Open Scope list_scope.
Open Scope nat_scope.

Local Arguments Z.pow : simpl never.
Local Arguments Z.opp : simpl never.
Local Arguments inject_Z : simpl never.

Lemma dget_map {V W} (g : V -> W) (d : dict V) k :
  dget (map (fun kv => (fst kv, g (snd kv))) d) k = option_map g (dget d k).
Proof.
  induction d as [|[k' v] d IH]; simpl; [reflexivity|].
  destruct (String.eqb k k'); [reflexivity|exact IH].
Qed.

Lemma dkeys_map {V W} (g : V -> W) (d : dict V) :
  dkeys (map (fun kv => (fst kv, g (snd kv))) d) = dkeys d.
Proof. unfold dkeys. rewrite map_map. reflexivity. Qed.

(** ** Padding *)

Definition pad_factor (n : nat) (fs : factor_spec) : factor_spec :=
  mk_factor (fs_measurements fs ++ repeat [] (n - length (fs_measurements fs)))
            (fs_transition fs) (fs_norm fs).

Lemma pad_factors_eq n md :
  md_factors (pad_measurements n md)
  = map (fun kv => (fst kv, pad_factor n (snd kv))) (md_factors md).
Proof. reflexivity. Qed.

Lemma In_pad n md f fs :
  In (f, fs) (md_factors (pad_measurements n md)) <->
  exists fs0, In (f, fs0) (md_factors md) /\ fs = pad_factor n fs0.
Proof.
  rewrite pad_factors_eq, in_map_iff. split.
  - intros [[f0 fs0] [[= <- <-] H]]. eauto.
  - intros [fs0 [H ->]]. exists (f, fs0). auto.
Qed.

Lemma pad_length n fs :
  length (fs_measurements fs) <= n -> length (fs_measurements (pad_factor n fs)) = n.
Proof. intros H. simpl. rewrite app_length, repeat_length. lia. Qed.

Lemma pad_has_n_periods n md : has_n_periods md n -> has_n_periods (pad_measurements n md) n.
Proof.
  intros [[f [fs [Hin Hl]]] Hle]. split.
  - exists f, (pad_factor n fs). split; [apply In_pad; eauto|]. apply pad_length. eauto.
  - intros f' fs' H. apply In_pad in H. destruct H as [fs0 [H ->]].
    rewrite pad_length; [lia|eauto].
Qed.

Lemma pad_measures n md p f v :
  measures (pad_measurements n md) p f v <-> measures md p f v.
Proof.
  split.
  - intros [fs [ms [Hin [Hms Hv]]]]. apply In_pad in Hin. destruct Hin as [fs0 [Hin ->]].
    exists fs0, ms. split; [exact Hin|]. split; [|exact Hv]. simpl in Hms.
    destruct (Nat.lt_ge_cases p (length (fs_measurements fs0))) as [H|H].
    + now rewrite nth_error_app1 in Hms.
    + rewrite nth_error_app2 in Hms by exact H. apply nth_error_In in Hms.
      apply repeat_spec in Hms. subst ms. destruct Hv.
  - intros [fs [ms [Hin [Hms Hv]]]]. exists (pad_factor n fs), ms.
    split; [apply In_pad; eauto|]. split; [|exact Hv]. simpl.
    rewrite nth_error_app1; [exact Hms|]. apply nth_error_Some. congruence.
Qed.

Lemma pad_normalized_loading n md p f v q :
  normalized_loading (pad_measurements n md) p f v q <-> normalized_loading md p f v q.
Proof.
  split.
  - intros [fs [nm [l [d [Hin H]]]]]. apply In_pad in Hin. destruct Hin as [fs0 [Hin ->]].
    exists fs0, nm, l, d. auto.
  - intros [fs [nm [l [d [Hin H]]]]]. exists (pad_factor n fs), nm, l, d.
    split; [apply In_pad; eauto|exact H].
Qed.

Lemma pad_normalized_intercept n md p f v q :
  normalized_intercept (pad_measurements n md) p f v q <-> normalized_intercept md p f v q.
Proof.
  split.
  - intros [fs [nm [l [d [Hin H]]]]]. apply In_pad in Hin. destruct Hin as [fs0 [Hin ->]].
    exists fs0, nm, l, d. auto.
  - intros [fs [nm [l [d [Hin H]]]]]. exists (pad_factor n fs), nm, l, d.
    split; [apply In_pad; eauto|exact H].
Qed.

Lemma pad_wf n md : wf_dicts md -> wf_dicts (pad_measurements n md).
Proof.
  intros [H1 H2]. split; [|exact H2]. rewrite pad_factors_eq, map_map. exact H1.
Qed.

Lemma pad_latent n md : latent_of (pad_measurements n md) = latent_of md.
Proof. unfold latent_of. rewrite pad_factors_eq, map_map. reflexivity. Qed.

Lemma pad_labels n md d : get_labels (pad_measurements n md) d = get_labels md d.
Proof.
  unfold get_labels. rewrite pad_factors_eq, dkeys_map. reflexivity.
Qed.

Lemma pad_transition_info n md d :
  get_transition_info (pad_measurements n md) (get_labels md d)
  = get_transition_info md (get_labels md d).
Proof.
  unfold get_transition_info. f_equal. apply mapM_ext. intros f _.
  unfold dget_err. rewrite pad_factors_eq, dget_map.
  destruct (dget (md_factors md) f); reflexivity.
Qed.

Lemma pad_process_normalizations n md d :
  process_normalizations (pad_measurements n md) d (get_labels md d)
  = process_normalizations md d (get_labels md d).
Proof.
  unfold process_normalizations. apply mapM_ext. intros f _.
  unfold dget_err. rewrite pad_factors_eq, dget_map.
  destruct (dget (md_factors md) f); reflexivity.
Qed.

Lemma pad_events n md m : events (pad_measurements n md) m = events md m.
Proof.
  unfold events. apply flat_map_ext_in. intros p _. f_equal.
  rewrite pad_factors_eq, flat_map_map. apply flat_map_ext_in. intros [f fs] _. simpl.
  now rewrite nth_app_repeat.
Qed.

Lemma pad_check_model n md d :
  wf_dicts md ->
  check_model (pad_measurements n md) (get_labels md d) d = Ok tt <->
  check_model md (get_labels md d) d = Ok tt.
Proof.
  intros Hwf. rewrite <- (pad_labels n md d) at 1.
  rewrite !check_model_ok by (apply Hwf || apply (pad_wf n md Hwf)).
  assert (stagemap_of (pad_measurements n md) (n_periods d) = stagemap_of md (n_periods d))
    as -> by reflexivity.
  split; intros [H1 [H2 H3]]; (split; [exact H1|split]); intros p f v q Hn.
  - apply (pad_normalized_loading n md) in Hn. apply H2 in Hn. now rewrite pad_measures in Hn.
  - apply (pad_normalized_intercept n md) in Hn. apply H3 in Hn. now rewrite pad_measures in Hn.
  - apply (pad_normalized_loading n md) in Hn. apply H2 in Hn. now rewrite pad_measures.
  - apply (pad_normalized_intercept n md) in Hn. apply H3 in Hn. now rewrite pad_measures.
Qed.

Lemma pad_get_dimensions n md :
  has_n_periods md n -> get_dimensions (pad_measurements n md) = get_dimensions md.
Proof.
  intros Hn. destruct (md_options md) as [o|] eqn:Eo.
  - set (d := mk_dims (length (md_factors md)) (length (observed_of md)) n
                (length (controls_of md) + 1) (n_mixtures_of md)).
    assert (get_dimensions md = Ok d) as ->.
    { apply get_dimensions_ok. exists o. auto. }
    apply get_dimensions_ok. exists o. split; [exact Eo|]. split; [now apply pad_has_n_periods|].
    unfold d. rewrite pad_factors_eq, map_length. reflexivity.
  - unfold get_dimensions. simpl. rewrite Eo.
    destruct Hn as [[f [fs [Hin _]]] _].
    destruct (md_factors md); [destruct Hin|reflexivity].
Qed.

Lemma padding md n p :
  wf_dicts md -> has_n_periods md n ->
  process_model (pad_measurements n md) = Ok p <-> process_model md = Ok p.
Proof.
  intros Hwf Hn.
  assert (forall q d, get_dimensions md = Ok d ->
    (process_model (pad_measurements n md) = Ok q <-> process_model md = Ok q)) as H.
  { intros q d Hd. unfold process_model. rewrite pad_get_dimensions by exact Hn.
    rewrite Hd. simpl. rewrite pad_labels.
    pose proof (pad_check_model n md d Hwf) as Hc.
    rewrite pad_transition_info, pad_process_normalizations.
    apply get_dimensions_ok in Hd. destruct Hd as [o [_ [Hnd _]]].
    assert (get_update_info (pad_measurements n md) d (get_labels md d)
              (process_anchoring (pad_measurements n md))
            = get_update_info md d (get_labels md d) (process_anchoring md)) as ->.
    { rewrite get_update_info_events by assumption. rewrite <- (pad_labels n md d).
      rewrite get_update_info_events.
      - now rewrite pad_events.
      - now apply pad_wf.
      - rewrite (has_n_periods_fun _ _ _ Hnd Hn). now apply pad_has_n_periods. }
    destruct (check_model md (get_labels md d) d) as [[]|e];
      destruct (check_model (pad_measurements n md) (get_labels md d) d) as [[]|e']; simpl.
    - reflexivity.
    - discriminate (proj2 Hc eq_refl).
    - discriminate (proj1 Hc eq_refl).
    - split; discriminate. }
  destruct (get_dimensions md) as [d|e] eqn:E; [exact (H p d eq_refl)|].
  unfold process_model. rewrite pad_get_dimensions by exact Hn. rewrite E. simpl. tauto.
Qed.

(** ** Purposes *)

Definition ordered_events (e1 e2 : event) : Prop :=
  ev_key e1 = ev_key e2 -> ~ (snd e1 = PAnchoring /\ snd e2 = PMeasurement).

Lemma ForallOrdPairs_app {A} (R : A -> A -> Prop) l1 l2 :
  ForallOrdPairs R l1 -> ForallOrdPairs R l2 ->
  (forall x y, In x l1 -> In y l2 -> R x y) -> ForallOrdPairs R (l1 ++ l2).
Proof.
  intros H1 H2 H. induction H1 as [|x l1 Hf Hs IH]; simpl; [exact H2|].
  constructor.
  - apply Forall_app. split; [exact Hf|]. apply Forall_forall. intros y Hy.
    apply H; [now left|exact Hy].
  - apply IH. intros a b Ha Hb. apply H; [now right|exact Hb].
Qed.

Lemma ForallOrdPairs_all {A} (R : A -> A -> Prop) l :
  (forall x y, In x l -> In y l -> R x y) -> ForallOrdPairs R l.
Proof.
  induction l as [|x l IH]; intros H; constructor.
  - apply Forall_forall. intros y Hy. apply H; [now left|now right].
  - apply IH. intros a b Ha Hb. apply H; now right.
Qed.

Lemma ForallOrdPairs_app_inv {A} (R : A -> A -> Prop) l1 l2 :
  ForallOrdPairs R (l1 ++ l2) ->
  ForallOrdPairs R l1 /\ (forall x y, In x l1 -> In y l2 -> R x y).
Proof.
  induction l1 as [|x l1 IH]; simpl; intros H.
  - split; [constructor|]. intros x y [].
  - inversion H as [|? ? Hf Hs]; subst. apply Forall_app in Hf. destruct Hf as [Hf1 Hf2].
    destruct (IH Hs) as [IH1 IH2]. split; [now constructor|].
    intros a b [<-|Ha] Hb; [|now apply IH2]. rewrite Forall_forall in Hf2. auto.
Qed.

Lemma last_purpose_ordered evs k :
  ForallOrdPairs ordered_events evs ->
  (last_purpose evs k = Some PAnchoring <->
   exists e, In e evs /\ ev_key e = k /\ snd e = PAnchoring).
Proof.
  induction evs as [|e evs IH] using rev_ind; intros Ho.
  - split; [discriminate|]. intros [e [[] _]].
  - apply ForallOrdPairs_app_inv in Ho. destruct Ho as [Ho1 Ho2].
    rewrite last_purpose_snoc. destruct (key_eq_dec (ev_key e) k) as [E|E].
    + split.
      * intros [= Hs]. exists e. split; [apply in_app_iff; right; now left|auto].
      * intros [e' [Hin [Hk Hp]]]. apply in_app_iff in Hin. destruct Hin as [Hin|[<-|[]]].
        -- specialize (Ho2 e' e Hin (or_introl eq_refl)). unfold ordered_events in Ho2.
           destruct (snd e); [|reflexivity]. exfalso. apply Ho2; [congruence|auto].
        -- now rewrite Hp.
    + rewrite (IH Ho1). split.
      * intros [e' [Hin H]]. exists e'. split; [apply in_app_iff; now left|exact H].
      * intros [e' [Hin [Hk H]]]. apply in_app_iff in Hin. destruct Hin as [Hin|[<-|[]]].
        -- eauto.
        -- contradiction.
Qed.

Lemma events_ordered md n : ForallOrdPairs ordered_events (events md n).
Proof.
  unfold events, range. generalize 0 as s. induction n as [|n IH]; intros s; simpl; [constructor|].
  apply ForallOrdPairs_app; [|apply IH|].
  - apply ForallOrdPairs_app.
    + apply ForallOrdPairs_all. intros x y Hx Hy _ [H _].
      apply in_flat_map in Hx. destruct Hx as [ffs [_ Hx]].
      apply in_map_iff in Hx. destruct Hx as [v [<- _]]. discriminate.
    + apply ForallOrdPairs_all. intros x y Hx Hy _ [_ H].
      apply in_map_iff in Hy. destruct Hy as [v [<- _]]. discriminate.
    + intros x y Hx Hy _ [_ H]. apply in_map_iff in Hy. destruct Hy as [v [<- _]]. discriminate.
  - intros x y Hx Hy E. exfalso.
    assert (fst (ev_key x) = s) as Ex.
    { apply in_app_iff in Hx. destruct Hx as [Hx|Hx].
      - apply in_flat_map in Hx. destruct Hx as [ffs [_ Hx]].
        apply in_map_iff in Hx. now destruct Hx as [v [<- _]].
      - apply in_map_iff in Hx. now destruct Hx as [v [<- _]]. }
    assert (s < fst (ev_key y)) as Ey.
    { apply in_flat_map in Hy. destruct Hy as [q [Hq Hy]]. apply in_seq in Hq.
      apply in_app_iff in Hy. destruct Hy as [Hy|Hy].
      - apply in_flat_map in Hy. destruct Hy as [ffs [_ Hy]].
        apply in_map_iff in Hy. destruct Hy as [v [<- _]]. unfold ev_key. simpl. lia.
      - apply in_map_iff in Hy. destruct Hy as [v [<- _]]. unfold ev_key. simpl. lia. }
    rewrite E in Ex. lia.
Qed.

Lemma p_update_purpose md p r :
  wf_dicts md -> process_model md = Ok p -> In r (p_update p) ->
  (u_purpose r = Some PAnchoring <-> exists f, anchors md (u_period r) f (u_var r)) /\
  (u_purpose r = Some PMeasurement <-> ~ exists f, anchors md (u_period r) f (u_var r)).
Proof.
  intros Hwf Hp Hr. destruct (process_update_table md p Hwf Hp) as [E Hn].
  rewrite E in Hr. pose proof Hr as Hr0. apply table_row in Hr. destruct Hr as [_ Hpu].
  assert (u_purpose r = Some PAnchoring <-> exists f, anchors md (u_period r) f (u_var r)) as HA.
  { rewrite Hpu, last_purpose_ordered by apply events_ordered. split.
    - intros [[[[k f] v] pu] [Hin [Hk Hs]]]. simpl in Hs. subst pu.
      unfold ev_key, u_key in Hk. simpl in Hk. injection Hk as <- <-.
      apply In_events in Hin; [|exact Hn]. destruct Hin as [[H _]|[_ H]]; [discriminate|].
      eauto.
    - intros [f Hf]. exists (u_period r, f, u_var r, PAnchoring).
      split; [apply In_events; auto|]. auto. }
  split; [exact HA|]. rewrite <- HA.
  assert (u_purpose r <> None) as Hnn.
  { rewrite Hpu, last_purpose_none.
    assert (In (u_key r) (map u_key (table (events md (n_periods (p_dims p)))))) as Hi
      by (apply in_map; exact Hr0).
    rewrite table_keys, In_first_appearances in Hi. tauto. }
  destruct (u_purpose r) as [[|]|]; split; congruence.
Qed.

(** ** Writing out defaults *)

Definition default_norm_factor (fs : factor_spec) : factor_spec :=
  mk_factor (fs_measurements fs) (fs_transition fs)
    (match fs_norm fs with
     | Some nm => Some (mk_norm (default (ns_loadings nm) []) (default (ns_intercepts nm) []))
     | None => Some (mk_norm (Some []) (Some []))
     end).

Lemma write_out_factors n md :
  md_factors (write_out_defaults n md)
  = map (fun kv => (fst kv, default_norm_factor (snd kv))) (md_factors md).
Proof. reflexivity. Qed.

Lemma default_get {A} (o : option A) d : get_default (default o d) d = get_default o d.
Proof. destruct o; reflexivity. Qed.

Lemma default_norm_get fs :
  let nm := get_default (fs_norm (default_norm_factor fs)) (mk_norm None None) in
  let nm0 := get_default (fs_norm fs) (mk_norm None None) in
  get_default (ns_loadings nm) [] = get_default (ns_loadings nm0) [] /\
  get_default (ns_intercepts nm) [] = get_default (ns_intercepts nm0) [].
Proof. destruct fs as [ms t [[[l|] [i|]]|]]; simpl; auto. Qed.

Lemma write_out_defaults_same md n :
  has_n_periods md n -> process_model (write_out_defaults n md) = process_model md.
Proof.
  intros Hn.
  assert (get_dimensions (write_out_defaults n md) = get_dimensions md) as Ed.
  { unfold get_dimensions. rewrite write_out_factors. unfold dvalues. rewrite !map_map.
    rewrite map_length. simpl. rewrite !default_get.
    destruct (py_max _); [|reflexivity]. simpl.
    destruct (md_options md) as [o|]; [|reflexivity]. simpl. now rewrite default_get. }
  unfold process_model. rewrite Ed.
  destruct (get_dimensions md) as [d|e] eqn:Hd; [|reflexivity]. simpl.
  apply get_dimensions_ok in Hd. destruct Hd as [o [Ho [Hnd _]]].
  rewrite <- (has_n_periods_fun _ _ _ Hnd Hn) in *.
  assert (get_labels (write_out_defaults (n_periods d) md) d = get_labels md d) as El.
  { unfold get_labels. rewrite write_out_factors, dkeys_map. simpl. rewrite !default_get.
    reflexivity. }
  rewrite El.
  assert (process_anchoring (write_out_defaults (n_periods d) md) = process_anchoring md) as Ea.
  { unfold process_anchoring. simpl. destruct (md_anchoring md) as [a|]; [|reflexivity]. simpl.
    now rewrite !default_get. }
  rewrite Ea.
  assert (process_estimation_options (write_out_defaults (n_periods d) md)
          = process_estimation_options md) as Eo.
  { unfold process_estimation_options. simpl. rewrite Ho. simpl. now rewrite !default_get. }
  rewrite Eo.
  assert (check_model (write_out_defaults (n_periods d) md) (get_labels md d) d
          = check_model md (get_labels md d) d) as ->.
  { unfold check_model. f_equal. unfold check_normalizations. f_equal. apply mapM_ext.
    intros f _. unfold dget_err. rewrite write_out_factors, dget_map.
    destruct (dget (md_factors md) f) as [fs|]; [|reflexivity].
    cbn [option_map rbind]. destruct (default_norm_get fs) as [E1 E2]. simpl in E1, E2 |- *.
    rewrite E1, E2. reflexivity. }
  assert (get_transition_info (write_out_defaults (n_periods d) md) (get_labels md d)
          = get_transition_info md (get_labels md d)) as ->.
  { unfold get_transition_info. f_equal. apply mapM_ext. intros f _.
    unfold dget_err. rewrite write_out_factors, dget_map.
    destruct (dget (md_factors md) f); reflexivity. }
  assert (get_update_info (write_out_defaults (n_periods d) md) d (get_labels md d)
            (process_anchoring md)
          = get_update_info md d (get_labels md d) (process_anchoring md)) as ->.
  { unfold get_update_info. f_equal. apply mapM_ext. intros f _.
    unfold dget_err. rewrite write_out_factors, dget_map.
    destruct (dget (md_factors md) f); reflexivity. }
  assert (process_normalizations (write_out_defaults (n_periods d) md) d (get_labels md d)
          = process_normalizations md d (get_labels md d)) as ->; [|reflexivity].
  unfold process_normalizations. apply mapM_ext. intros f _.
  unfold dget_err. rewrite write_out_factors, dget_map.
  destruct (dget (md_factors md) f) as [fs|]; [|reflexivity].
  cbn [option_map rbind]. destruct (default_norm_get fs) as [E1 E2]. simpl in E1, E2 |- *.
  rewrite E1, E2. reflexivity.
Qed.
