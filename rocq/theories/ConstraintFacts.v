(** Facts about the generated constraints. *)
Require Import String Ascii Arith ZArith QArith Bool Lia List.
From Verif Require Import PyBase ListFacts StringFacts ModelSpec ProcessModel CheckModel SpecModel
  ProcessModelFacts AcceptFacts ParamsIndex SpecIndex IndexFacts SpecFacts ParseParams SpecParse
  ParseFacts Constraints SpecConstraints.
Import ListNotations.
Open Scope string_scope.
Open Scope list_scope.
Open Scope nat_scope.

(** ** Normalizations *)

Definition loadings_of (fs : factor_spec) : list (dict Q) :=
  get_default (ns_loadings (get_default (fs_norm fs) (mk_norm None None))) [].
Definition intercepts_of (fs : factor_spec) : list (dict Q) :=
  get_default (ns_intercepts (get_default (fs_norm fs) (mk_norm None None))) [].
Definition filled {A} (n : nat) (l : list (list A)) : list (list A) := l ++ repeat [] (n - length l).

Lemma nth_filled {A} n (l : list (list A)) t x :
  In x (nth t (filled n l) []) <-> exists d, nth_error l t = Some d /\ In x d.
Proof.
  unfold filled. split.
  - intros H. destruct (Nat.lt_ge_cases t (length l)) as [Ht|Ht].
    + rewrite app_nth1 in H by exact Ht. exists (nth t l []). split; [|exact H].
      now apply nth_error_nth'.
    + rewrite app_nth2 in H by exact Ht. rewrite nth_repeat in H. destruct H.
  - intros [d [Hd Hx]]. assert (t < length l) as Ht by (apply nth_error_Some; congruence).
    rewrite app_nth1 by exact Ht. now rewrite (nth_error_nth _ _ _ Hd).
Qed.

Lemma fill_list_inv_eq {A} (l : list A) x n r :
  fill_list l x n = Ok r -> r = l ++ repeat x (n - length l) /\ length r = n.
Proof.
  unfold fill_list. destruct (length l <=? n) eqn:E; [|discriminate]. intros [= <-].
  apply Nat.leb_le in E. split; [reflexivity|]. rewrite app_length, repeat_length. lia.
Qed.

Lemma process_norms md p :
  wf_dicts md -> process_model md = Ok p ->
  p_norms p = map (fun ffs => (fst ffs, mk_norms (filled (n_periods (p_dims p)) (loadings_of (snd ffs)))
                                                 (filled (n_periods (p_dims p)) (intercepts_of (snd ffs)))))
                  (md_factors md) /\
  (forall f nm, In (f, nm) (p_norms p) -> length (nm_loadings nm) = n_periods (p_dims p)).
Proof.
  intros [Hnd _] H. apply process_model_inv in H.
  destruct H as [_ [Hl [_ [_ [_ [_ [_ Hn]]]]]]]. rewrite Hl in Hn.
  unfold process_normalizations in Hn.
  change (l_latent (get_labels md (p_dims p))) with (map fst (md_factors md)) in *.
  rewrite mapM_map in Hn.
  assert (forall l, incl l (md_factors md) -> forall r,
    mapM (fun x : string * factor_spec =>
      do fs <- dget_err (md_factors md) (fst x);
      let norminfo := get_default (fs_norm fs) (mk_norm None None) in
      do lo <- fill_list (get_default (ns_loadings norminfo) []) [] (n_periods (p_dims p));
      do ic <- fill_list (get_default (ns_intercepts norminfo) []) [] (n_periods (p_dims p));
      Ok (fst x, mk_norms lo ic)) l = Ok r ->
    r = map (fun ffs => (fst ffs, mk_norms (filled (n_periods (p_dims p)) (loadings_of (snd ffs)))
                                  (filled (n_periods (p_dims p)) (intercepts_of (snd ffs))))) l /\
    (forall f nm, In (f, nm) r -> length (nm_loadings nm) = n_periods (p_dims p))) as G.
  2: { apply G; [apply incl_refl|exact Hn]. }
  clear Hn. induction l as [|[f fs] l IH]; intros Hincl r Hr.
  - simpl in Hr. injection Hr as <-. split; [reflexivity|]. intros ? ? [].
  - cbn [mapM] in Hr. apply rbind_ok in Hr. destruct Hr as [x [Hx Hr]].
    apply rbind_ok in Hr. destruct Hr as [xs [Hxs Hr]]. injection Hr as <-.
    destruct (IH (fun y Hy => Hincl y (or_intror Hy)) xs Hxs) as [-> HIH].
    unfold dget_err in Hx. simpl fst in Hx.
    rewrite (In_dget _ _ _ Hnd (Hincl _ (or_introl eq_refl))) in Hx. cbn [rbind] in Hx.
    apply rbind_ok in Hx. destruct Hx as [lo [Hlo Hx]].
    apply rbind_ok in Hx. destruct Hx as [ic [Hic Hx]]. injection Hx as <-.
    apply fill_list_inv_eq in Hlo, Hic. destruct Hlo as [-> Hlo], Hic as [-> _].
    split; [reflexivity|]. intros g nm [[= <- <-]|Hin]; [exact Hlo|eapply HIH; eauto].
Qed.

Lemma normalized_loading_iff md t f m q :
  normalized_loading md t f m q <->
  exists fs d, In (f, fs) (md_factors md) /\ nth_error (loadings_of fs) t = Some d /\ In (m, q) d.
Proof.
  unfold normalized_loading, loadings_of. split.
  - intros [fs [nm [lds [d [H1 [H2 [H3 [H4 H5]]]]]]]]. exists fs, d. rewrite H2. simpl.
    rewrite H3. auto.
  - intros [fs [d [H1 [H2 H3]]]]. destruct (fs_norm fs) as [nm|] eqn:E; simpl in H2.
    + destruct (ns_loadings nm) as [l|] eqn:E2; simpl in H2.
      * exists fs, nm, l, d. auto.
      * destruct t; discriminate.
    + destruct t; discriminate.
Qed.

Lemma normalized_intercept_iff md t f m q :
  normalized_intercept md t f m q <->
  exists fs d, In (f, fs) (md_factors md) /\ nth_error (intercepts_of fs) t = Some d /\ In (m, q) d.
Proof.
  unfold normalized_intercept, intercepts_of. split.
  - intros [fs [nm [lds [d [H1 [H2 [H3 [H4 H5]]]]]]]]. exists fs, d. rewrite H2. simpl.
    rewrite H3. auto.
  - intros [fs [d [H1 [H2 H3]]]]. destruct (fs_norm fs) as [nm|] eqn:E; simpl in H2.
    + destruct (ns_intercepts nm) as [l|] eqn:E2; simpl in H2.
      * exists fs, nm, l, d. auto.
      * destruct t; discriminate.
    + destruct t; discriminate.
Qed.

Section Facts.
  Variables (md : model_dict) (p : processed).
  Hypothesis Hwf : wf_dicts md.
  Hypothesis Hp : process_model md = Ok p.
  Let n := n_periods (p_dims p).
  Let idx := params_index_of p.

  Lemma n_is_n_periods : has_n_periods md n.
  Proof. apply (p_dims_eq md p Hp). Qed.

  Lemma factors_nonempty : exists f fs l, md_factors md = (f, fs) :: l.
  Proof.
    destruct n_is_n_periods as [[f [fs [H _]]] _].
    destruct (md_factors md) as [|[g gs] l]; [destruct H|eauto].
  Qed.

  Lemma loading_period t f m q : normalized_loading md t f m q -> t < n.
  Proof.
    intros H. pose proof (proj1 (process_model_accepts md Hwf) (ex_intro _ p Hp)) as [_ [k [Hk [_ [Hv _]]]]].
    assert (k = n) as -> by (eapply has_n_periods_fun; [exact Hk|apply n_is_n_periods]).
    destruct H as [fs [nm [l [d [H1 [H2 [H3 [H4 _]]]]]]]].
    destruct Hv as [_ [_ Hv]]. specialize (Hv f fs nm l H1 H2 (or_introl H3)).
    assert (t < length l) by (apply nth_error_Some; congruence). lia.
  Qed.

  Lemma intercept_period t f m q : normalized_intercept md t f m q -> t < n.
  Proof.
    intros H. pose proof (proj1 (process_model_accepts md Hwf) (ex_intro _ p Hp)) as [_ [k [Hk [_ [Hv _]]]]].
    assert (k = n) as -> by (eapply has_n_periods_fun; [exact Hk|apply n_is_n_periods]).
    destruct H as [fs [nm [l [d [H1 [H2 [H3 [H4 _]]]]]]]].
    destruct Hv as [_ [_ Hv]]. specialize (Hv f fs nm l H1 H2 (or_intror H3)).
    assert (t < length l) by (apply nth_error_Some; congruence). lia.
  Qed.

  Lemma In_normalization_pairs lb q :
    In (lb, q) (normalization_pairs (p_norms p) (latent_of md) (range n)) <->
    (exists t f m, lb = (CLoadings, t, m, f) /\ normalized_loading md t f m q) \/
    (exists t f m, lb = (CControls, t, m, "constant") /\ normalized_intercept md t f m q).
  Proof.
    unfold normalization_pairs. rewrite in_flat_map.
    destruct (process_norms md p Hwf Hp) as [E _]. pose proof (proj1 Hwf) as Hnd.
    assert (forall f fs, In (f, fs) (md_factors md) ->
      dget (p_norms p) f = Some (mk_norms (filled n (loadings_of fs)) (filled n (intercepts_of fs)))) as Hget.
    { intros f fs Hin. apply In_dget.
      - rewrite E. unfold dkeys. now rewrite map_map.
      - rewrite E. apply in_map_iff. exists (f, fs). auto. }
    split.
    - intros [f [Hf H]]. apply in_map_iff in Hf. destruct Hf as [[f' fs] [Ef Hin]].
      simpl in Ef. subst f'. rewrite (Hget _ _ Hin) in H.
      apply in_flat_map in H. destruct H as [t [Ht H]]. simpl in H.
      apply in_app_iff in H. destruct H as [H|H]; apply in_map_iff in H;
        destruct H as [[m q'] [[= <- <-] H]]; apply nth_filled in H; destruct H as [d [Hd H]].
      + left. exists t, f, m. split; [reflexivity|]. apply normalized_loading_iff. eauto.
      + right. exists t, f, m. split; [reflexivity|]. apply normalized_intercept_iff. eauto.
    - intros [[t [f [m [-> H]]]]|[t [f [m [-> H]]]]].
      + pose proof (loading_period t f m q H) as Ht.
        apply normalized_loading_iff in H. destruct H as [fs [d [Hin [Hd H]]]].
        exists f. split; [apply in_map_iff; now exists (f, fs)|]. rewrite (Hget _ _ Hin).
        apply in_flat_map. exists t. split; [now apply In_range|]. simpl.
        apply in_app_iff. left. apply in_map_iff. exists (m, q). split; [reflexivity|].
        apply nth_filled. eauto.
      + pose proof (intercept_period t f m q H) as Ht.
        apply normalized_intercept_iff in H. destruct H as [fs [d [Hin [Hd H]]]].
        exists f. split; [apply in_map_iff; now exists (f, fs)|]. rewrite (Hget _ _ Hin).
        apply in_flat_map. exists t. split; [now apply In_range|]. simpl.
        apply in_app_iff. right. apply in_map_iff. exists (m, q). split; [reflexivity|].
        apply nth_filled. eauto.
  Qed.

  Lemma normalization_constraints_eq :
    normalization_constraints (p_norms p) (latent_of md)
    = match normalization_pairs (p_norms p) (latent_of md) (range n) with
      | [] => []
      | ps => [CFixed (SLabels (map fst ps)) (VList (map snd ps))]
      end.
  Proof.
    unfold normalization_constraints. destruct factors_nonempty as [f [fs [l El]]].
    destruct (process_norms md p Hwf Hp) as [E Hlen].
    assert (latent_of md = f :: map fst l) as EL by (unfold latent_of; now rewrite El).
    rewrite EL.
    assert (In (f, fs) (md_factors md)) as Hin by (rewrite El; now left).
    assert (dget (p_norms p) f = Some (mk_norms (filled n (loadings_of fs)) (filled n (intercepts_of fs)))) as Hget.
    { apply In_dget.
      - rewrite E. unfold dkeys. rewrite map_map. apply Hwf.
      - rewrite E. apply in_map_iff. now exists (f, fs). }
    cbv zeta. rewrite Hget. apply dget_In in Hget. apply Hlen in Hget. now rewrite Hget.
  Qed.

  Lemma Forall2_pairs {A B} (R : A -> B -> Prop) (l : list (A * B)) :
    Forall2 R (map fst l) (map snd l) <-> forall a b, In (a, b) l -> R a b.
  Proof.
    induction l as [|[a b] l IH]; simpl.
    - split; [intros _ ? ? []|intros _; constructor].
    - split.
      + intros H. inversion H; subst. intros x y [[= <- <-]|Hin]; [assumption|]. now apply IH.
      + intros H. constructor; [apply H; now left|]. apply IH. intros x y Hin. apply H. now right.
  Qed.

  Lemma sat_normalizations v :
    Forall (satisfies idx v) (normalization_constraints (p_norms p) (latent_of md))
    <-> normalizations_hold md v.
  Proof.
    rewrite normalization_constraints_eq.
    assert (normalizations_hold md v <-> forall lb q,
      In (lb, q) (normalization_pairs (p_norms p) (latent_of md) (range n)) -> (v lb == q)%Q) as ->.
    { unfold normalizations_hold. split.
      - intros [H1 H2] lb q H. apply In_normalization_pairs in H.
        destruct H as [[t [f [m [-> H]]]]|[t [f [m [-> H]]]]]; eauto.
      - intros H. split; intros t f m q Hn; apply H; apply In_normalization_pairs; eauto 8. }
    destruct (normalization_pairs (p_norms p) (latent_of md) (range n)) as [|x ps] eqn:E.
    - split; [intros _ ? ? []|constructor].
    - rewrite <- Forall2_pairs. simpl. split; [now inversion 1|].
      intros H. constructor; [exact H|constructor].
  Qed.

  (** ** Blocks of the index *)

  Lemma lb_is_cat_eqb c lb : lb_is_cat c lb = cat_eqb (lb_cat lb) c.
  Proof. unfold lb_is_cat. now destruct (lb_cat lb), c. Qed.

  Lemma selected_weights :
    selected idx (SCat CMixWeights)
    = map (fun e => (CMixWeights, 0, mixture_name e, "-")) (seq 0 (n_mixtures_of md)).
  Proof.
    unfold selected. erewrite filter_ext; [|intros; apply lb_is_cat_eqb].
    unfold idx, params_index_of. rewrite block_weights.
    destruct (p_dims_eq md p Hp) as [_ [_ [_ [-> _]]]]. reflexivity.
  Qed.

  Lemma filter_andb {A} (f g : A -> bool) l :
    filter (fun x => andb (f x) (g x)) l = filter g (filter f l).
  Proof.
    induction l as [|x l IH]; simpl; [reflexivity|]. destruct (f x); simpl; [|assumption].
    destruct (g x); now rewrite IH.
  Qed.

  Lemma selected_cat_period c t :
    selected idx (SCatPeriod c t)
    = filter (fun lb => lb_period lb =? t) (filter (fun lb => cat_eqb (lb_cat lb) c) idx).
  Proof.
    unfold selected. rewrite filter_andb. f_equal. apply filter_ext. apply lb_is_cat_eqb.
  Qed.

  Lemma filter_periods {A} (g : nat -> list A) (per : A -> nat) k t :
    (forall s x, In x (g s) -> per x = s) -> t < k ->
    filter (fun x => per x =? t) (flat_map g (range k)) = g t.
  Proof.
    intros Hg Ht. unfold range.
    assert (forall a k, a <= t < a + k -> filter (fun x => per x =? t) (flat_map g (seq a k)) = g t
            /\ True) as G.
    2: { apply (G 0 k). lia. }
    clear k Ht. intros a k. revert a.
    assert (forall a k, t < a -> filter (fun x => per x =? t) (flat_map g (seq a k)) = []) as G0.
    { intros a k0. revert a. induction k0 as [|k0 IH]; intros a Ha; simpl; [reflexivity|].
      rewrite filter_app, IH by lia. rewrite app_nil_r. apply filter_none.
      intros x Hx. apply Hg in Hx. apply Nat.eqb_neq. lia. }
    induction k as [|k IH]; intros a Ha; [lia|]. simpl. split; [|trivial]. rewrite filter_app.
    destruct (Nat.eq_dec a t) as [->|Hne].
    - rewrite G0 by lia. rewrite app_nil_r. apply filter_all. intros x Hx. apply Hg in Hx.
      apply Nat.eqb_eq. lia.
    - rewrite (proj1 (IH (S a) ltac:(lia))). rewrite filter_none; [reflexivity|].
      intros x Hx. apply Hg in Hx. apply Nat.eqb_neq. lia.
  Qed.

  Lemma selected_shocks t :
    t + 1 < n ->
    selected idx (SCatPeriod CShockSds t) = map (fun f => (CShockSds, t, f, "-")) (latent_of md).
  Proof.
    intros Ht. rewrite selected_cat_period. unfold idx, params_index_of. rewrite block_shock.
    destruct (p_labels_eq md p Hp) as [-> [_ [_ [-> _]]]].
    unfold shock_sd_labels. rewrite drop_last_range.
    apply (filter_periods (fun q => map (fun f => (CShockSds, q, f, "-")) (latent_of md)) lb_period).
    - intros s x Hx. apply in_map_iff in Hx. destruct Hx as [f [<- _]]. reflexivity.
    - fold n. lia.
  Qed.

  Definition transition_names_of (fs : factor_spec) : list string :=
    transition_parameters (latent_of md ++ observed_of md) (fs_transition fs).

  Lemma selected_transition t :
    t + 1 < n ->
    selected idx (SCatPeriod CTransition t)
    = flat_map (fun ffs => map (fun name => (CTransition, t, fst ffs, name))
                               (transition_names_of (snd ffs))) (md_factors md).
  Proof.
    intros Ht. rewrite selected_cat_period. unfold idx, params_index_of. rewrite block_trans.
    destruct (p_labels_eq md p Hp) as [_ [_ [_ [-> _]]]].
    destruct (process_tinfo md p Hwf Hp) as [-> _].
    unfold transition_labels. rewrite drop_last_range, flat_map_map. cbn [fst snd].
    induction (md_factors md) as [|[f fs] l IH]; cbn [flat_map fst snd]; [reflexivity|].
    rewrite filter_app. apply f_equal2; [|exact IH].
    apply (filter_periods (fun q => map (fun name => (CTransition, q, f, name)) _) lb_period).
    - intros s x Hx. apply in_map_iff in Hx. destruct Hx as [m [<- _]]. reflexivity.
    - fold n. lia.
  Qed.

  (** ** Stages *)

  Lemma In_stage_periods sm s t : In t (stage_periods sm s) <-> nth_error sm t = Some s.
  Proof.
    unfold stage_periods. rewrite in_map_iff. split.
    - intros [[t' s'] [E H]]. simpl in E. subst t'. apply filter_In in H. destruct H as [H Es].
      apply In_enumerate in H. simpl in Es. apply Z.eqb_eq in Es. congruence.
    - intros H. exists (t, s). split; [reflexivity|]. apply filter_In. split.
      + now apply In_enumerate.
      + apply Z.eqb_refl.
  Qed.

  Lemma In_zinsert x y l : In x (zinsert y l) <-> x = y \/ In x l.
  Proof.
    induction l as [|z l IH]; simpl; [firstorder congruence|].
    destruct (Z.eqb_spec y z) as [->|Hne]; [simpl; firstorder congruence|].
    destruct (Z.ltb y z); simpl; [firstorder congruence|]. rewrite IH. firstorder congruence.
  Qed.

  Lemma In_zsort_unique x l : In x (zsort_unique l) <-> In x l.
  Proof.
    unfold zsort_unique. induction l as [|y l IH]; simpl; [tauto|].
    rewrite In_zinsert, IH. intuition congruence.
  Qed.

  Lemma stagemap_period t s : nth_error (stagemap_of md n) t = Some s -> t + 1 < n.
  Proof.
    intros H. pose proof (proj1 (process_model_accepts md Hwf) (ex_intro _ p Hp)) as [_ [k [Hk [Hs _]]]].
    assert (k = n) as -> by (eapply has_n_periods_fun; [exact Hk|apply n_is_n_periods]).
    destruct Hs as [_ [Hl _]]. assert (t < length (stagemap_of md n)) by (apply nth_error_Some; congruence).
    lia.
  Qed.

  Lemma Forall2_map_map {A B C} (R : B -> C -> Prop) (f : A -> B) (g : A -> C) l :
    Forall2 R (map f l) (map g l) <-> forall x, In x l -> R (f x) (g x).
  Proof.
    induction l as [|x l IH]; simpl.
    - split; [intros _ ? []|constructor].
    - split.
      + intros H. inversion H; subst. intros y [<-|Hy]; [assumption|]. now apply IH.
      + intros H. constructor; [apply H; now left|]. apply IH. intros y Hy. apply H. now right.
  Qed.

  Lemma Forall2_app_iff {A B} (R : A -> B -> Prop) a1 a2 b1 b2 :
    length a1 = length b1 ->
    Forall2 R (a1 ++ a2) (b1 ++ b2) <-> Forall2 R a1 b1 /\ Forall2 R a2 b2.
  Proof.
    revert b1. induction a1 as [|x a1 IH]; intros [|y b1] Hl; simpl in *; try discriminate.
    - split; [now split; [constructor|]|tauto].
    - injection Hl as Hl. split.
      + intros H. inversion H; subst. apply IH in H5; [|exact Hl]. destruct H5.
        split; [now constructor|assumption].
      + intros [H1 H2]. inversion H1; subst. constructor; [assumption|]. now apply IH.
  Qed.

  Lemma transitions_equal v t t' :
    t + 1 < n -> t' + 1 < n ->
    Forall2 (fun a b => v a == v b)%Q (selected idx (SCatPeriod CTransition t))
                                      (selected idx (SCatPeriod CTransition t'))
    <-> forall f fs name, In (f, fs) (md_factors md) -> In name (transition_names_of fs) ->
          (v (CTransition, t, f, name) == v (CTransition, t', f, name))%Q.
  Proof.
    intros Ht Ht'. rewrite !selected_transition by assumption. clear.
    induction (md_factors md) as [|[f fs] l IH]; simpl.
    - split; [intros _ ? ? ? []|constructor].
    - rewrite Forall2_app_iff by now rewrite !map_length. rewrite IH, Forall2_map_map. split.
      + intros [H1 H2] g gs name [[= <- <-]|Hin] Hname; [now apply H1|eauto].
      + intros H. split; eauto.
  Qed.

  Lemma shocks_equal v t t' :
    t + 1 < n -> t' + 1 < n ->
    Forall2 (fun a b => v a == v b)%Q (selected idx (SCatPeriod CShockSds t))
                                      (selected idx (SCatPeriod CShockSds t'))
    <-> forall f, In f (latent_of md) ->
          (v (CShockSds, t, f, "-") == v (CShockSds, t', f, "-"))%Q.
  Proof.
    intros Ht Ht'. rewrite !selected_shocks by assumption.
    now rewrite Forall2_map_map.
  Qed.

  Lemma two_in_list {A} (l : list A) : (exists x y, In x l /\ In y l /\ x <> y) -> 1 < length l.
  Proof.
    intros [x [y [Hx [Hy Hne]]]]. destruct l as [|a [|b l]]; simpl in *; [tauto| |lia].
    destruct Hx as [<-|[]], Hy as [<-|[]]. congruence.
  Qed.

  Lemma sat_stages v :
    Forall (satisfies idx v) (stage_constraints (stagemap_of md n) (zsort_unique (stagemap_of md n)))
    <-> stages_hold md n v.
  Proof.
    rewrite Forall_forall. unfold stage_constraints, stages_hold. split.
    - intros H t t' [s [Hs Hs']].
      destruct (Nat.eq_dec t t') as [<-|Hne]; [split; intros; reflexivity|].
      pose proof (stagemap_period _ _ Hs) as Ht. pose proof (stagemap_period _ _ Hs') as Ht'.
      set (ps := stage_periods (stagemap_of md n) s).
      assert (1 < length ps) as Hlen.
      { apply two_in_list. exists t, t'. split; [|split]; [now apply In_stage_periods..|exact Hne]. }
      assert (forall c, In c [CTransition; CShockSds] ->
        satisfies idx v (CPairwiseEquality (map (SCatPeriod c) ps))) as G.
      { intros c Hc. apply H. apply in_flat_map. exists s. split.
        - apply In_zsort_unique. eapply nth_error_In; eauto.
        - cbv zeta. apply Nat.ltb_lt in Hlen. fold ps. rewrite Hlen.
          destruct Hc as [<-|[<-|[]]]; simpl; auto. }
      split.
      + apply transitions_equal; [assumption..|]. apply (G CTransition); [simpl; auto|..];
          apply in_map; now apply In_stage_periods.
      + apply shocks_equal; [assumption..|]. apply (G CShockSds); [simpl; auto|..];
          apply in_map; now apply In_stage_periods.
    - intros H c Hc. apply in_flat_map in Hc. destruct Hc as [s [_ Hc]]. cbv zeta in Hc.
      destruct (1 <? length (stage_periods (stagemap_of md n) s)); [|destruct Hc].
      assert (forall c t t', c = CTransition \/ c = CShockSds ->
         In t (stage_periods (stagemap_of md n) s) -> In t' (stage_periods (stagemap_of md n) s) ->
         Forall2 (fun a b => v a == v b)%Q (selected idx (SCatPeriod c t))
                                      (selected idx (SCatPeriod c t'))) as G.
      { intros c' t t' Hc' Ht Ht'. apply In_stage_periods in Ht, Ht'.
        destruct (H t t' (ex_intro _ s (conj Ht Ht'))) as [H1 H2].
        apply stagemap_period in Ht, Ht'.
        destruct Hc' as [->| ->]; [now apply transitions_equal|now apply shocks_equal]. }
      destruct Hc as [<-|[<-|[]]]; intros s1 s2 H1 H2; apply in_map_iff in H1, H2;
        destruct H1 as [t [<- H1]], H2 as [t' [<- H2]]; apply G; auto.
  Qed.

  (** ** Mixtures *)

  Lemma sat_weights v :
    Forall (satisfies idx v) (mixture_weights_constraints (n_mixtures_of md))
    <-> mixture_weights_hold md v.
  Proof.
    unfold mixture_weights_constraints, mixture_weights_hold.
    destruct (Nat.eqb_spec (n_mixtures_of md) 1) as [E|E].
    - split.
      + intros H. inversion H as [|? ? H1 _]; subst. unfold satisfies in H1. rewrite selected_weights, E in H1.
        split; [|congruence]. intros _. apply H1. simpl. auto.
      + intros [H _]. repeat constructor. unfold satisfies. rewrite selected_weights, E.
        intros lb [<-|[]]. now apply H.
    - split.
      + intros H. inversion H as [|? ? H1 _]; subst. unfold satisfies in H1.
        rewrite selected_weights, map_map in H1. split; [congruence|]. intros _. exact H1.
      + intros [_ H]. repeat constructor; specialize (H E); unfold satisfies;
          rewrite selected_weights, map_map; apply H.
  Qed.

  Lemma increasing_seq (g : nat -> Q) k a :
    increasing (map g (seq a k)) <-> forall e, e + 1 < k -> (g (a + e)%nat <= g (a + e + 1)%nat)%Q.
  Proof.
    revert a. induction k as [|k IH]; intros a.
    - simpl. split; [intros _ e He; lia|trivial].
    - destruct k as [|k].
      + simpl. split; [intros _ e He; lia|trivial].
      + transitivity ((g a <= g (S a))%Q /\ increasing (map g (seq (S a) (S k)))); [reflexivity|].
        rewrite (IH (S a)). split.
        * intros [H1 H2] e He. destruct e as [|e].
          -- replace (a + 0) with a by lia. replace (a + 1) with (S a) by lia. exact H1.
          -- replace (a + S e) with (S a + e) by lia. apply H2. lia.
        * intros H. split.
          -- specialize (H 0 ltac:(lia)). replace (a + 0) with a in H by lia.
             replace (a + 1) with (S a) in H by lia. exact H.
          -- intros e He. replace (S a + e) with (a + S e) by lia. apply H. lia.
  Qed.

  Lemma sat_means v :
    Forall (satisfies idx v) (initial_states_constraints (n_mixtures_of md) (latent_of md))
    <-> mixtures_ordered md v.
  Proof.
    unfold initial_states_constraints, mixtures_ordered.
    destruct factors_nonempty as [f0 [fs0 [l0 El]]].
    assert (nth 0 (latent_of md) "" = f0 /\ nth_error (latent_of md) 0 = Some f0) as [E0 E0'].
    { unfold latent_of. rewrite El. auto. }
    rewrite E0, E0'.
    destruct (1 <? n_mixtures_of md) eqn:Hm.
    - transitivity (increasing (map (fun e => v (CInitStates, 0, mixture_name e, f0))
                                    (seq 0 (n_mixtures_of md)))).
      + split.
        * intros H. inversion H as [|? ? H1 _]; subst. unfold satisfies in H1. simpl in H1.
          now rewrite map_map in H1.
        * intros H. repeat constructor. unfold satisfies. simpl. now rewrite map_map.
      + rewrite increasing_seq. split.
        * intros H e f He [= <-]. now apply H.
        * intros H e He. now apply H.
    - apply Nat.ltb_ge in Hm. split; [intros _ e f He; lia|constructor].
  Qed.

  (** ** Transition functions *)

  Lemma names_zipped :
    combine (latent_of md) (p_transition_names p)
    = map (fun ffs => (fst ffs, function_name (fs_transition (snd ffs)))) (md_factors md).
  Proof.
    unfold p_transition_names. destruct (process_tinfo md p Hwf Hp) as [_ ->].
    unfold dvalues, latent_of. rewrite map_map.
    induction (md_factors md) as [|x l IH]; simpl; [reflexivity|]. f_equal. exact IH.
  Qed.

  Lemma valid_transition_of f fs : In (f, fs) (md_factors md) -> valid_transition (fs_transition fs).
  Proof.
    intros H. pose proof (proj1 (process_model_accepts md Hwf) (ex_intro _ p Hp))
      as [_ [k [_ [_ [_ Hv]]]]]. eauto.
  Qed.

  Lemma called_function_name f name :
    transition_called md f name <->
    In (f, name) (map (fun ffs => (fst ffs, function_name (fs_transition (snd ffs)))) (md_factors md)).
  Proof.
    unfold transition_called. rewrite in_map_iff. split.
    - intros [fs [Hin H]]. exists (f, fs). split; [|exact Hin]. simpl. f_equal.
      destruct H as [->|[ps ->]]; reflexivity.
    - intros [[f' fs] [[= <- <-] Hin]]. exists fs. split; [exact Hin|].
      destruct (valid_transition_of _ _ Hin) as [[s [-> _]]|[nm [ps ->]]]; simpl; eauto.
  Qed.

  Lemma sat_constant v :
    Forall (satisfies idx v)
      (constant_factors_constraints (latent_of md) (p_transition_names p) (range n))
    <-> constant_factors_hold md n v.
  Proof.
    rewrite Forall_forall. unfold constant_factors_constraints, constant_factors_hold.
    rewrite names_zipped. split.
    - intros H t f Ht Hc. apply called_function_name in Hc.
      specialize (H (CFixed (SLabel (CShockSds, t, f, "-")) (VScalar 0))). apply H; [|simpl; auto].
      apply in_flat_map. exists (f, "constant"). split; [exact Hc|]. simpl.
      apply in_map_iff. exists t. split; [reflexivity|]. now apply In_drop_last_range.
    - intros H c Hc. apply in_flat_map in Hc. destruct Hc as [[f name] [Hin Hc]]. simpl in Hc.
      destruct (String.eqb_spec name "constant") as [->|]; [|destruct Hc].
      apply in_map_iff in Hc. destruct Hc as [t [<- Ht]]. apply In_drop_last_range in Ht.
      intros lb [<-|[]]. apply H; [exact Ht|]. now apply called_function_name.
  Qed.

  Lemma drop_last_snoc {A} (l : list A) x : drop_last (l ++ [x]) = l.
  Proof. unfold drop_last. now rewrite removelast_last. Qed.

  Lemma sat_log_ces v :
    Forall (satisfies idx v)
      (transition_constraints (latent_of md) (latent_of md ++ observed_of md)
         (p_transition_names p) (range n))
    <-> log_ces_holds md n v.
  Proof.
    rewrite Forall_forall. unfold transition_constraints, log_ces_holds.
    rewrite names_zipped. unfold constraints_log_ces, params_log_ces. rewrite drop_last_snoc. split.
    - intros H t f Ht Hc. apply called_function_name in Hc.
      specialize (H (CProbability (SLabels (map (fun g => (CTransition, t, f, g))
                                              (latent_of md ++ observed_of md))))).
      simpl in H. rewrite map_map in H. apply H.
      apply in_flat_map. exists (f, "log_ces"). split; [exact Hc|]. simpl.
      apply in_map_iff. exists t. split; [reflexivity|]. now apply In_drop_last_range.
    - intros H c Hc. apply in_flat_map in Hc. destruct Hc as [[f name] [Hin Hc]]. simpl in Hc.
      destruct (String.eqb_spec name "log_ces") as [->|]; [|destruct Hc].
      apply in_map_iff in Hc. destruct Hc as [t [<- Ht]]. apply In_drop_last_range in Ht.
      simpl. rewrite map_map. apply H; [exact Ht|]. now apply called_function_name.
  Qed.

  (** ** Anchoring *)

  Definition fixed_locs (locs : list label) (q : Q) : list constr_body :=
    match locs with [] => [] | _ => [CFixed (SLabels locs) (VScalar q)] end.

  Lemma sat_fixed v locs q :
    Forall (satisfies idx v) (fixed_locs locs q) <-> forall lb, In lb locs -> (v lb == q)%Q.
  Proof.
    unfold fixed_locs. destruct locs as [|x locs].
    - split; [intros _ ? []|constructor].
    - split.
      + intros H. inversion H; subst. assumption.
      + intros H. now repeat constructor.
  Qed.

  Definition is_anchoring (r : urow) : bool :=
    match u_purpose r with Some PAnchoring => true | _ => false end.

  Lemma In_anchoring_rows t m :
    (exists r, In r (filter is_anchoring (p_update p)) /\ u_period r = t /\ u_var r = m)
    <-> exists f, anchors md t f m.
  Proof.
    split.
    - intros [r [Hr [<- <-]]]. apply filter_In in Hr. destruct Hr as [Hr Ha].
      apply (p_update_purpose md p r Hwf Hp Hr). unfold is_anchoring in Ha.
      destruct (u_purpose r) as [[]|]; congruence.
    - intros [f Hf].
      destruct (proj2 (In_rows_eq md p t m Hwf Hp)) as [r [Hr [<- <-]]].
      { exists f. now right. }
      exists r. split; [|auto]. apply filter_In. split; [exact Hr|].
      pose proof (proj1 (p_update_purpose md p r Hwf Hp Hr)) as [_ H].
      unfold is_anchoring. now rewrite H by eauto.
  Qed.

  Lemma p_anch_eq : p_anch p = process_anchoring md.
  Proof. apply process_model_inv in Hp. now destruct Hp as [_ [_ [-> _]]]. Qed.

  Lemma a_flags :
    a_free_constant (p_anch p) = anch_flag md as_free_constant /\
    a_free_controls (p_anch p) = anch_flag md as_free_controls /\
    a_free_loadings (p_anch p) = anch_flag md as_free_loadings /\
    a_outcomes (p_anch p) = outcomes_of md.
  Proof.
    rewrite p_anch_eq. unfold process_anchoring, anch_flag, outcomes_of, get_default.
    destruct (md_anchoring md) as [a|]; simpl; [|auto].
    destruct (as_free_constant a), (as_free_controls a), (as_free_loadings a), (as_outcomes a); auto.
  Qed.

  Lemma anchors_iff t f m :
    anchors md t f m <-> t < n /\ exists o, In (f, o) (outcomes_of md) /\ m = anchoring_name o f.
  Proof.
    unfold anchors, anchored, outcomes_of, anchoring_name. split.
    - intros [[k [Hk Ht]] [o [[a [outs [Ha [Ho Hin]]]] Hm]]].
      assert (k = n) as -> by (eapply has_n_periods_fun; [exact Hk|apply n_is_n_periods]).
      split; [exact Ht|]. rewrite Ha, Ho. eauto.
    - intros [Ht [o [Hin Hm]]]. split; [exists n; split; [apply n_is_n_periods|exact Ht]|].
      exists o. split; [|exact Hm].
      destruct (md_anchoring md) as [a|]; [|destruct Hin].
      destruct (as_outcomes a) as [outs|] eqn:E; [|destruct Hin]. eauto.
  Qed.

  Lemma sat_anchoring v :
    Forall (satisfies idx v)
      (anchoring_constraints (p_update p) ("constant" :: controls_of md) (p_anch p) (range n))
    <-> anchoring_holds md v.
  Proof.
    unfold anchoring_constraints. fold is_anchoring. cbv zeta.
    change (filter (fun r => match u_purpose r with Some PAnchoring => true | _ => false end)
              (p_update p)) with (filter is_anchoring (p_update p)).
    destruct a_flags as [-> [-> [-> ->]]].
    rewrite !Forall_app. unfold anchoring_holds.
    assert (forall (b : bool) locs q (P : Prop),
      ((forall lb, In lb locs -> (v lb == q)%Q) <-> P) ->
      (Forall (satisfies idx v) 
        (if negb b then match locs with [] => [] | _ => [CFixed (SLabels locs) (VScalar q)] end else []) <-> (b = false -> P))) as G.
    { intros b locs q P HP. destruct b; simpl.
      - split; [discriminate|constructor].
      - fold (fixed_locs locs q). rewrite sat_fixed, HP. tauto. }
    assert (forall A B C D : Prop, (A <-> C) -> (B <-> D) -> (A /\ B <-> C /\ D)) as G2 by tauto.
    apply G2; [|apply G2].
    - apply G. split.
      + intros H t f m Ha. destruct (proj2 (In_anchoring_rows t m)) as [r [Hr [<- <-]]]; [eauto|].
        apply H. apply in_map_iff. eauto.
      + intros H lb Hlb. apply in_map_iff in Hlb. destruct Hlb as [r [<- Hr]].
        destruct (proj1 (In_anchoring_rows (u_period r) (u_var r))) as [f Hf]; eauto.
    - apply G. split.
      + intros H t f m c Ha Hc Hne.
        destruct (proj2 (In_anchoring_rows t m)) as [r [Hr [<- <-]]]; [eauto|].
        apply H. apply in_flat_map. exists r. split; [exact Hr|]. apply in_map_iff. exists c.
        split; [reflexivity|]. apply filter_In. split; [now right|].
        apply String.eqb_neq in Hne. now rewrite Hne.
      + intros H lb Hlb. apply in_flat_map in Hlb. destruct Hlb as [r [Hr Hlb]].
        apply in_map_iff in Hlb. destruct Hlb as [c [<- Hc]]. apply filter_In in Hc.
        destruct Hc as [Hc Hne]. apply negb_true_iff, String.eqb_neq in Hne.
        destruct (proj1 (In_anchoring_rows (u_period r) (u_var r))) as [f Hf]; [eauto|].
        apply (H _ f); [exact Hf| |exact Hne]. destruct Hc; [congruence|assumption].
    - apply G. split.
      + intros H t f m Ha. apply anchors_iff in Ha. destruct Ha as [Ht [o [Ho ->]]].
        apply H. apply in_flat_map. exists t. split; [now apply In_range|].
        apply in_map_iff. now exists (f, o).
      + intros H lb Hlb. apply in_flat_map in Hlb. destruct Hlb as [t [Ht Hlb]].
        apply in_map_iff in Hlb. destruct Hlb as [[f o] [<- Ho]]. apply H.
        apply anchors_iff. split; [now apply In_range|]. eauto.
  Qed.

  (** ** All constraints *)

  Lemma bodies_eq :
    constraint_bodies p
    = normalization_constraints (p_norms p) (latent_of md)
      ++ mixture_weights_constraints (n_mixtures_of md)
      ++ stage_constraints (stagemap_of md n) (zsort_unique (stagemap_of md n))
      ++ constant_factors_constraints (latent_of md) (p_transition_names p) (range n)
      ++ initial_states_constraints (n_mixtures_of md) (latent_of md)
      ++ transition_constraints (latent_of md) (latent_of md ++ observed_of md)
           (p_transition_names p) (range n)
      ++ anchoring_constraints (p_update p) ("constant" :: controls_of md) (p_anch p) (range n).
  Proof.
    unfold constraint_bodies, l_all. destruct (p_labels_eq md p Hp) as [-> [-> [-> [-> [-> ->]]]]].
    destruct (p_dims_eq md p Hp) as [_ [_ [_ [-> _]]]]. reflexivity.
  Qed.

  Lemma sat_all v :
    Forall (satisfies idx v) (constraint_bodies p) <->
    normalizations_hold md v /\ mixture_weights_hold md v /\ stages_hold md n v /\
    constant_factors_hold md n v /\ mixtures_ordered md v /\ log_ces_holds md n v /\
    anchoring_holds md v.
  Proof.
    rewrite bodies_eq, !Forall_app, sat_normalizations, sat_weights, sat_stages, sat_constant,
      sat_means, sat_log_ces, sat_anchoring. reflexivity.
  Qed.
End Facts.

(** ** A valuation that satisfies bounds and constraints *)

Definition pair_value (ps : list (label * Q)) (lb : label) : option Q :=
  match find (fun x => if label_eq_dec (fst x) lb then true else false) ps with
  | Some x => Some (snd x)
  | None => None
  end.

Definition unit_share (k : nat) : Q := (1 / inject_Z (Z.of_nat k))%Q.

(** Normalized parameters have their values, other loadings are one, other
    coefficients zero, all standard deviations [s] and all weights equal. *)
Definition witness (md : model_dict) (p : processed) (s : Q) (lb : label) : Q :=
  match pair_value (normalization_pairs (p_norms p) (latent_of md)
                      (range (n_periods (p_dims p)))) lb with
  | Some q => q
  | None =>
      match lb_cat lb with
      | CControls => 0%Q
      | CLoadings => 1%Q
      | CMeasSds | CShockSds | CInitChol => s
      | CInitStates => 0%Q
      | CMixWeights => unit_share (n_mixtures_of md)
      | CTransition => unit_share (length (latent_of md ++ observed_of md))
      end
  end.

Lemma pair_value_None ps lb : (forall q, ~ In (lb, q) ps) -> pair_value ps lb = None.
Proof.
  intros H. unfold pair_value.
  destruct (find _ ps) as [[lb' q]|] eqn:E; [|reflexivity].
  apply find_some in E. destruct E as [Hin E]. simpl in E.
  destruct (label_eq_dec lb' lb) as [->|]; [|discriminate]. now apply H in Hin.
Qed.

Lemma pair_value_Some ps lb q :
  (forall q q', In (lb, q) ps -> In (lb, q') ps -> (q == q')%Q) -> In (lb, q) ps ->
  exists q', pair_value ps lb = Some q' /\ (q' == q)%Q.
Proof.
  intros H Hin. unfold pair_value.
  destruct (find _ ps) as [[lb' q']|] eqn:E.
  - apply find_some in E. destruct E as [Hin' E]. simpl in E.
    destruct (label_eq_dec lb' lb) as [->|]; [|discriminate]. exists q'. eauto.
  - exfalso. apply (find_none _ _ E) in Hin. simpl in Hin.
    destruct (label_eq_dec lb lb); congruence.
Qed.

Lemma sum_const {A} (q : Q) (l : list A) :
  (fold_right Qplus 0 (map (fun _ => q) l) == inject_Z (Z.of_nat (length l)) * q)%Q.
Proof.
  induction l as [|x l IH]; [simpl; ring|]. cbn [map fold_right]. rewrite IH.
  change (length (x :: l)) with (S (length l)). rewrite Nat2Z.inj_succ, <- Z.add_1_r.
  rewrite inject_Z_plus. ring.
Qed.

Lemma unit_share_probability {A} (l : list A) k :
  length l = k -> 1 <= k -> is_probability (map (fun _ => unit_share k) l).
Proof.
  intros Hl Hk. assert (0 < inject_Z (Z.of_nat k))%Q as Hpos.
  { change 0%Q with (inject_Z 0). rewrite <- Zlt_Qlt. lia. }
  split.
  - apply Forall_forall. intros q Hq. apply in_map_iff in Hq. destruct Hq as [_ [<- _]].
    unfold unit_share. apply Qlt_le_weak, Qlt_shift_div_l; [exact Hpos|]. now rewrite Qmult_0_l.
  - rewrite sum_const, Hl. unfold unit_share. field. intros E. rewrite E in Hpos. now apply Qlt_irrefl in Hpos.
Qed.

Lemma is_probability_ext {A} (g h : A -> Q) l :
  (forall x, In x l -> g x = h x) -> is_probability (map h l) -> is_probability (map g l).
Proof. intros H. now rewrite (map_ext_in _ _ _ H). Qed.

Section Witness.
  Variables (md : model_dict) (p : processed) (s : Q).
  Hypothesis Hwf : wf_dicts md.
  Hypothesis Hp : process_model md = Ok p.
  Let n := n_periods (p_dims p).
  Let v := witness md p s.

  Lemma witness_free lb :
    (forall q, ~ In (lb, q) (normalization_pairs (p_norms p) (latent_of md) (range n))) ->
    v lb = match lb_cat lb with
           | CControls => 0%Q | CLoadings => 1%Q
           | CMeasSds | CShockSds | CInitChol => s
           | CInitStates => 0%Q
           | CMixWeights => unit_share (n_mixtures_of md)
           | CTransition => unit_share (length (latent_of md ++ observed_of md))
           end.
  Proof. intros H. unfold v, witness. now rewrite pair_value_None. Qed.

  Lemma witness_other lb :
    lb_cat lb <> CControls -> lb_cat lb <> CLoadings ->
    v lb = match lb_cat lb with
           | CControls => 0%Q | CLoadings => 1%Q
           | CMeasSds | CShockSds | CInitChol => s
           | CInitStates => 0%Q
           | CMixWeights => unit_share (n_mixtures_of md)
           | CTransition => unit_share (length (latent_of md ++ observed_of md))
           end.
  Proof.
    intros H1 H2. apply witness_free. intros q H. apply (In_normalization_pairs md p Hwf Hp) in H.
    destruct H as [[t [f [m [-> _]]]]|[t [f [m [-> _]]]]]; [now apply H2|now apply H1].
  Qed.

  Lemma witness_satisfies :
    consistent_normalizations md -> clean_anchoring md -> 1 <= n_mixtures_of md ->
    (forall f, transition_called md f "constant" -> (s == 0)%Q) ->
    Forall (satisfies (params_index_of p) v) (constraint_bodies p).
  Proof.
    intros [Hc1 Hc2] [Hlat [Hnd Hclean]] Hm Hs.
    pose proof (proj1 (process_model_accepts md Hwf) (ex_intro _ p Hp)) as [_ [k [Hk [_ [[Hv1 [Hv2 _]] _]]]]].
    apply (sat_all md p Hwf Hp). fold n.
    split; [|split; [|split; [|split; [|split; [|split]]]]].
    - split.
      + intros t f m q H.
        destruct (pair_value_Some (normalization_pairs (p_norms p) (latent_of md) (range n))
                    (CLoadings, t, m, f) q) as [q' [E Eq]].
        * intros q1 q2 H1 H2. apply (In_normalization_pairs md p Hwf Hp) in H1, H2.
          destruct H1 as [[t1 [f1 [m1 [[= <- <- <-] H1]]]]|[t1 [f1 [m1 [E _]]]]]; [|congruence].
          destruct H2 as [[t1 [f1 [m1 [[= <- <- <-] H2]]]]|[t1 [f1 [m1 [E _]]]]]; [|congruence].
          eauto.
        * apply (In_normalization_pairs md p Hwf Hp). left. eauto.
        * unfold v, witness. fold n. now rewrite E.
      + intros t f m q H.
        destruct (pair_value_Some (normalization_pairs (p_norms p) (latent_of md) (range n))
                    (CControls, t, m, "constant") q) as [q' [E Eq]].
        * intros q1 q2 H1 H2. apply (In_normalization_pairs md p Hwf Hp) in H1, H2.
          destruct H1 as [[t1 [f1 [m1 [E _]]]]|[t1 [f1 [m1 [[= <- <-] H1]]]]]; [congruence|].
          destruct H2 as [[t1 [f2 [m1 [E _]]]]|[t1 [f2 [m1 [[= <- <-] H2]]]]]; [congruence|].
          eauto.
        * apply (In_normalization_pairs md p Hwf Hp). right. eauto.
        * unfold v, witness. fold n. now rewrite E.
    - split.
      + intros E. unfold weight. rewrite witness_other by discriminate. simpl lb_cat. cbv iota.
        now rewrite E.
      + intros _. apply is_probability_ext with (h := fun _ => unit_share (n_mixtures_of md)).
        * intros e _. unfold weight. now rewrite witness_other by discriminate.
        * apply unit_share_probability; [apply seq_length|exact Hm].
    - intros t t' _. split; intros; rewrite !witness_other by discriminate; reflexivity.
    - intros t f _ H. rewrite witness_other by discriminate. simpl. eauto.
    - intros e f _ _. rewrite !witness_other by discriminate. simpl. apply Qle_refl.
    - intros t f _ _.
      apply is_probability_ext with (h := fun _ => unit_share (length (latent_of md ++ observed_of md))).
      + intros g _. now rewrite witness_other by discriminate.
      + apply unit_share_probability; [reflexivity|]. rewrite app_length. unfold latent_of.
        destruct (factors_nonempty md p Hp) as [f0 [fs0 [l ->]]]. simpl. lia.
    - assert (forall t f m, anchors md t f m -> forall g, ~ measures md t g m) as Ha.
      { intros t f m H g Hg. apply (anchors_iff md p Hp) in H.
        destruct H as [_ [o [Hin ->]]]. eapply Hclean; eauto. }
      split; [|split].
      + intros _ t f m H. rewrite witness_free; [reflexivity|]. intros q Hq.
        apply (In_normalization_pairs md p Hwf Hp) in Hq.
        destruct Hq as [[t1 [f1 [m1 [E _]]]]|[t1 [f1 [m1 [[= <- <-] Hq]]]]]; [congruence|].
        eapply Ha; eauto.
      + intros _ t f m c H Hin Hne. rewrite witness_free; [reflexivity|]. intros q Hq.
        apply (In_normalization_pairs md p Hwf Hp) in Hq.
        destruct Hq as [[t1 [f1 [m1 [E _]]]]|[t1 [f1 [m1 [E Hq]]]]]; [discriminate|].
        apply Hne. apply (f_equal snd) in E. exact E.
      + intros _ t f m H. rewrite witness_free; [reflexivity|]. intros q Hq.
        apply (In_normalization_pairs md p Hwf Hp) in Hq.
        destruct Hq as [[t1 [f1 [m1 [[= <- <- <-] Hq]]]]|[t1 [f1 [m1 [E _]]]]]; [|congruence].
        eapply Ha; [exact H|]. apply (Hv1 _ _ _ _ Hq).
  Qed.
End Witness.

(** ** Diagonal entries *)

Lemma get_app_l a b i : i < String.length a -> String.get i (a ++ b)%string = String.get i a.
Proof.
  revert i. induction a as [|c a IH]; intros i Hi; simpl in *; [lia|].
  destruct i; [reflexivity|]. apply IH. lia.
Qed.

Lemma get_app_r a b i : String.get (String.length a + i) (a ++ b)%string = String.get i b.
Proof. induction a as [|c a IH]; simpl; [reflexivity|]. exact IH. Qed.

Lemma get_In s i c : String.get i s = Some c -> In c (list_ascii_of_string s).
Proof.
  revert i. induction s as [|d s IH]; intros i H; simpl in *; [destruct i; discriminate|].
  destruct i; [left; congruence|right; eauto].
Qed.

Lemma substring_app_l a b : String.substring 0 (String.length a) (a ++ b)%string = a.
Proof.
  induction a as [|c a IH]; simpl; [now destruct b|]. now rewrite IH.
Qed.

Lemma substring_full b : String.substring 0 (String.length b) b = b.
Proof. induction b as [|c b IH]; simpl; [reflexivity|]. now rewrite IH. Qed.

Lemma substring_app_r a b k :
  String.substring (String.length a) k (a ++ b)%string = String.substring 0 k b.
Proof.
  induction a as [|c a IH]; simpl; [reflexivity|].
  destruct (a ++ b)%string eqn:E; rewrite <- E in *; exact IH || (rewrite E; exact IH).
Qed.

Lemma is_diagonal_entry_spec c t m a b :
  without_char "-" a -> without_char "-" b ->
  is_diagonal_entry (c, t, m, cov_name a b) = true <-> a = b.
Proof.
  intros Ha Hb. unfold is_diagonal_entry, lb_name2, cov_name. cbn [snd]. cbv zeta.
  set (s := (a ++ "-" ++ b)%string). set (mid := String.length s / 2).
  assert (String.length s = String.length a + (1 + String.length b)) as Hlen.
  { unfold s. rewrite !append_length. reflexivity. }
  assert (String.get (String.length a) s = Some "-"%char) as Hdash.
  { unfold s. replace (String.length a) with (String.length a + 0) by lia.
    now rewrite get_app_r. }
  assert (forall i, String.get i s = Some "-"%char -> i = String.length a) as Honly.
  { intros i Hi. destruct (Nat.lt_trichotomy i (String.length a)) as [Hlt|[Heq|Hgt]].
    - unfold s in Hi. rewrite get_app_l in Hi by exact Hlt. apply get_In in Hi. now apply Ha in Hi.
    - exact Heq.
    - unfold s in Hi. replace i with (String.length a + (i - String.length a)) in Hi by lia.
      rewrite get_app_r in Hi. destruct (i - String.length a) as [|j] eqn:E; [lia|].
      simpl in Hi. apply get_In in Hi. now apply Hb in Hi. }
  assert (String.substring 0 (String.length a) s = a) as Hsl by apply substring_app_l.
  assert (String.substring (String.length a + 1) (String.length b) s = b) as Hsr.
  { unfold s. change (a ++ "-" ++ b)%string with (a ++ ("-" ++ b))%string.
    rewrite <- append_assoc.
    replace (String.length a + 1) with (String.length (a ++ "-"))
      by (rewrite append_length; reflexivity).
    rewrite substring_app_r. apply substring_full. }
  destruct (String.length s mod 2 =? 0) eqn:Hodd; cbv iota zeta.
  - split; [discriminate|]. intros E. exfalso. apply Nat.eqb_eq in Hodd.
    rewrite Hlen, <- E in Hodd.
    replace (String.length a + (1 + String.length a)) with (1 + String.length a * 2) in Hodd by lia.
    rewrite Nat.mod_add in Hodd by lia. discriminate.
  - apply Nat.eqb_neq in Hodd.
    destruct (String.get mid s) as [ch|] eqn:Hmid.
    + destruct (Ascii.eqb_spec ch "-"%char) as [->|Hne]; simpl.
      * apply Honly in Hmid.
        assert (String.length s = 2 * mid + 1) as Hs.
        { pose proof (Nat.div_mod_eq (String.length s) 2) as H. fold mid in H.
          pose proof (Nat.mod_upper_bound (String.length s) 2 ltac:(lia)). lia. }
        rewrite Hmid in *.
        replace (String.length s - (String.length a + 1)) with (String.length b) by lia.
        rewrite Hsl, Hsr.
        destruct (String.eqb_spec a b) as [->|Hne]; simpl; [tauto|]. split; [discriminate|congruence].
      * split; [discriminate|]. intros E. subst b. exfalso. apply Hne.
        assert (mid = String.length a) as Em.
        { unfold mid. rewrite Hlen. replace (String.length a + (1 + String.length a))
            with (1 + String.length a * 2) by lia. rewrite Nat.div_add by lia. reflexivity. }
        congruence.
    + split; [discriminate|]. intros E. subst b. exfalso.
      assert (mid = String.length a) as Em.
      { unfold mid. rewrite Hlen. replace (String.length a + (1 + String.length a))
          with (1 + String.length a * 2) by lia. rewrite Nat.div_add by lia. reflexivity. }
      congruence.
Qed.

(** ** Kinds *)

Definition kind (c : constr_body) : nat :=
  match c with
  | CFixed (SLabels _) (VList _) => 0
  | CFixed (SCat CMixWeights) _ => 1
  | CProbability (SCat CMixWeights) => 1
  | CPairwiseEquality _ => 2
  | CFixed (SLabel _) _ => 3
  | CIncreasing _ => 4
  | CProbability (SLabels _) => 5
  | CFixed (SLabels _) (VScalar _) => 6
  | _ => 7
  end.

Ltac kind_solve :=
  repeat match goal with
  | |- Forall _ (if ?b then _ else _) => destruct b
  | |- Forall _ [] => constructor
  | |- Forall _ (_ :: _) => constructor; [reflexivity|]
  | |- Forall _ (_ ++ _) => apply Forall_app; split
  | |- Forall _ (flat_map _ _) => apply Forall_flat_map, Forall_forall; intros; cbv beta zeta
  | |- Forall _ (map _ _) => apply Forall_map, Forall_forall; intros; reflexivity
  | |- Forall _ (match ?l with [] => [] | _ => _ end) => destruct l
  end.

Lemma kind_families md p (P : constr_body -> Prop) :
  process_model md = Ok p ->
  (forall c, In c (constraint_bodies p) -> P c) <->
  Forall P (normalization_constraints (p_norms p) (l_latent (p_labels p))) /\
  Forall P (mixture_weights_constraints (n_mixtures (p_dims p))) /\
  Forall P (stage_constraints (l_stagemap (p_labels p)) (l_stages (p_labels p))) /\
  Forall P (constant_factors_constraints (l_latent (p_labels p)) (p_transition_names p)
              (l_periods (p_labels p))) /\
  Forall P (initial_states_constraints (n_mixtures (p_dims p)) (l_latent (p_labels p))) /\
  Forall P (transition_constraints (l_latent (p_labels p)) (l_all (p_labels p))
              (p_transition_names p) (l_periods (p_labels p))) /\
  Forall P (anchoring_constraints (p_update p) (l_controls (p_labels p)) (p_anch p)
              (l_periods (p_labels p))).
Proof.
  intros _. rewrite <- Forall_forall. unfold constraint_bodies. now rewrite !Forall_app.
Qed.

Lemma kind_norm ns fs : Forall (fun c => kind c = 0) (normalization_constraints ns fs).
Proof. unfold normalization_constraints. destruct (normalization_pairs _ _ _); kind_solve. Qed.
Lemma kind_weights k : Forall (fun c => kind c = 1) (mixture_weights_constraints k).
Proof. unfold mixture_weights_constraints. kind_solve. Qed.
Lemma kind_stages a b : Forall (fun c => kind c = 2) (stage_constraints a b).
Proof. unfold stage_constraints. kind_solve. Qed.
Lemma kind_const a b c : Forall (fun c => kind c = 3) (constant_factors_constraints a b c).
Proof. unfold constant_factors_constraints. kind_solve. Qed.
Lemma kind_means a b : Forall (fun c => kind c = 4) (initial_states_constraints a b).
Proof. unfold initial_states_constraints. kind_solve. Qed.
Lemma kind_trans a b c d : Forall (fun c => kind c = 5) (transition_constraints a b c d).
Proof. unfold transition_constraints. kind_solve. Qed.
Lemma kind_anch a b c d : Forall (fun c => kind c = 6) (anchoring_constraints a b c d).
Proof.
  unfold anchoring_constraints. cbv zeta. kind_solve;
  match goal with |- Forall _ (match ?l with _ => _ end) => destruct l; kind_solve end.
Qed.

Lemma Forall_kind k (K P : constr_body -> Prop) l :
  (forall c, kind c = k -> K c) -> Forall (fun c => kind c = k) l ->
  Forall (fun c => K c -> P c) l <-> Forall P l.
Proof.
  intros HK Hk. rewrite !Forall_forall in *. split; intros H c Hc; [|intros _]; auto.
Qed.

Lemma Forall_other_kind k (K P : constr_body -> Prop) l :
  (forall c, kind c = k -> ~ K c) -> Forall (fun c => kind c = k) l ->
  Forall (fun c => K c -> P c) l <-> True.
Proof.
  intros HK Hk. rewrite !Forall_forall in *. split; [trivial|]. intros _ c Hc HKc.
  now apply HK in HKc; [|apply Hk].
Qed.
