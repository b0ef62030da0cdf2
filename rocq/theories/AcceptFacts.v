(** When is a specification accepted. *)
Require Import String Arith ZArith QArith Bool List Lia Sorted.
From Verif Require Import PyBase ListFacts ModelSpec ProcessModel CheckModel SpecModel
  ProcessModelFacts.
Import ListNotations.
Open Scope string_scope.
Open Scope list_scope.
Open Scope nat_scope.

(** ** Reports *)

Lemma rmap_concat_nil {A B} (g : A -> result (list B)) l :
  rmap (@concat B) (mapM g l) = Ok [] <-> forall x, In x l -> g x = Ok [].
Proof.
  induction l as [|x l IH]; simpl; [split; [intros _ y []|reflexivity]|].
  split.
  - intros H. destruct (g x) as [r|e] eqn:E; [|discriminate]. simpl in H.
    destruct (mapM g l) as [rs|e] eqn:El; [|discriminate]. simpl in H.
    injection H as H. apply app_eq_nil in H. destruct H as [-> H].
    intros y [<-|Hy]; [exact E|]. apply IH; [|exact Hy]. simpl. now rewrite H.
  - intros H. rewrite (H x) by now left. simpl.
    assert (rmap (@concat B) (mapM g l) = Ok []) as Hl by (apply IH; auto).
    destruct (mapM g l) as [rs|e]; [|discriminate]. simpl in Hl |- *.
    injection Hl as Hl. now rewrite Hl.
Qed.

Lemma check_normalized_present_nil nd meas f :
  check_normalized_present nd meas f = Ok [] <->
  forall i d v q, nth_error nd i = Some d -> In (v, q) d ->
    exists ms, nth_error meas i = Some ms /\ In v ms.
Proof.
  unfold check_normalized_present. rewrite rmap_concat_nil. split.
  - intros H i d v q Hd Hin.
    assert (In (i, d) (enumerate nd)) as Hi by now apply In_enumerate.
    specialize (H _ Hi). simpl in H.
    pose proof (proj1 (rmap_concat_nil _ d) H (v, q) Hin) as Hv. simpl in Hv.
    apply rbind_ok in Hv. destruct Hv as [ms [Hms Hv]].
    unfold nth_err in Hms. destruct (nth_error meas i) as [ms'|] eqn:E; [|discriminate].
    injection Hms as ->. exists ms. split; [reflexivity|].
    destruct (smem v ms) eqn:Es; [|discriminate]. now apply smem_In.
  - intros H [i d] Hi. apply In_enumerate in Hi. simpl.
    apply rmap_concat_nil. intros [v q] Hin. simpl.
    destruct (H i d v q Hi Hin) as [ms [Hms Hv]]. unfold nth_err. rewrite Hms. simpl.
    apply smem_In in Hv. now rewrite Hv.
Qed.

Lemma flat_map_nil_iff {A B} (g : A -> list B) l :
  flat_map g l = [] <-> forall x, In x l -> g x = [].
Proof.
  induction l as [|x l IH]; simpl; [split; [intros _ y []|reflexivity]|]. split.
  - intros H. apply app_eq_nil in H. destruct H as [H1 H2].
    intros y [<-|Hy]; [exact H1|]. apply IH; auto.
  - intros H. rewrite (H x) by now left. apply IH. auto.
Qed.

Lemma check_loadings_not_zero_nil nd f :
  check_loadings_not_zero nd f = [] <->
  forall i d v q, nth_error nd i = Some d -> In (v, q) d -> ~ (q == 0)%Q.
Proof.
  unfold check_loadings_not_zero. rewrite flat_map_nil_iff. split.
  - intros H i d v q Hd Hin Hq.
    assert (In (i, d) (enumerate nd)) as Hi by now apply In_enumerate.
    specialize (H _ Hi). simpl in H. rewrite flat_map_nil_iff in H.
    specialize (H _ Hin). simpl in H. apply Qeq_bool_iff in Hq. rewrite Hq in H. discriminate.
  - intros H [i d] Hi. apply In_enumerate in Hi. simpl. apply flat_map_nil_iff.
    intros [v q] Hin. simpl. specialize (H i d v q Hi Hin).
    destruct (Qeq_bool q 0) eqn:E; [|reflexivity]. apply Qeq_bool_iff in E. contradiction.
Qed.

Lemma check_normalizations_nil md :
  NoDup (map fst (md_factors md)) ->
  check_normalizations md (latent_of md) = Ok [] <->
  (forall p f v q, normalized_loading md p f v q -> measures md p f v /\ ~ (q == 0)%Q) /\
  (forall p f v q, normalized_intercept md p f v q -> measures md p f v).
Proof.
  intros Hnd. unfold check_normalizations. rewrite rmap_concat_nil.
  assert (forall f, In f (latent_of md) -> exists fs, In (f, fs) (md_factors md)) as Hex.
  { intros f Hf. apply in_map_iff in Hf. destruct Hf as [[f' fs] [<- Hin]]. eauto. }
  split.
  - intros H.
    assert (forall f fs nm, In (f, fs) (md_factors md) -> fs_norm fs = Some nm ->
       check_normalized_present (get_default (ns_loadings nm) []) (fs_measurements fs) f = Ok []
       /\ check_loadings_not_zero (get_default (ns_loadings nm) []) f = []
       /\ check_normalized_present (get_default (ns_intercepts nm) []) (fs_measurements fs) f
          = Ok []) as Hall.
    { intros f fs nm Hin Hnm.
      assert (In f (latent_of md)) as Hf by (apply in_map_iff; now exists (f, fs)).
      specialize (H f Hf). unfold dget_err in H. rewrite (In_dget _ _ _ Hnd Hin) in H.
      simpl in H. rewrite Hnm in H. simpl in H.
      apply rbind_ok in H. destruct H as [r1 [H1 H]].
      apply rbind_ok in H. destruct H as [r2 [H2 H]]. injection H as H.
      apply app_eq_nil in H. destruct H as [-> H].
      apply app_eq_nil in H. destruct H as [H3 ->]. auto. }
    split.
    + intros p f v q [fs [nm [lds [d [Hin [Hnm [Hl [Hd Hv]]]]]]]].
      destruct (Hall f fs nm Hin Hnm) as [H1 [H2 _]]. rewrite Hl in H1, H2. simpl in H1, H2.
      rewrite check_normalized_present_nil in H1. rewrite check_loadings_not_zero_nil in H2.
      destruct (H1 p d v q Hd Hv) as [ms [Hms Hvm]]. split; [|eauto].
      exists fs, ms. auto.
    + intros p f v q [fs [nm [lds [d [Hin [Hnm [Hl [Hd Hv]]]]]]]].
      destruct (Hall f fs nm Hin Hnm) as [_ [_ H1]]. rewrite Hl in H1. simpl in H1.
      rewrite check_normalized_present_nil in H1.
      destruct (H1 p d v q Hd Hv) as [ms [Hms Hvm]]. exists fs, ms. auto.
  - intros [H1 H2] f Hf. destruct (Hex f Hf) as [fs Hin].
    unfold dget_err. rewrite (In_dget _ _ _ Hnd Hin). simpl.
    assert (forall fs', In (f, fs') (md_factors md) -> fs' = fs) as Huniq.
    { intros fs' Hin'. apply (In_dget _ _ _ Hnd) in Hin, Hin'. congruence. }
    destruct (fs_norm fs) as [nm|] eqn:Hnm; [|reflexivity].
    cbn [get_default].
    assert (check_normalized_present (get_default (ns_loadings nm) []) (fs_measurements fs) f
            = Ok []) as ->.
    { apply check_normalized_present_nil. intros i d v q Hd Hv.
      destruct (ns_loadings nm) as [lds|] eqn:E; simpl in Hd; [|destruct i; discriminate].
      destruct (H1 i f v q) as [[fs' [ms [Hin' [Hms Hvm]]]] _].
      { exists fs, nm, lds, d. auto 10. }
      rewrite (Huniq _ Hin') in Hms. eauto. }
    assert (check_normalized_present (get_default (ns_intercepts nm) []) (fs_measurements fs) f
            = Ok []) as ->.
    { apply check_normalized_present_nil. intros i d v q Hd Hv.
      destruct (ns_intercepts nm) as [lds|] eqn:E; simpl in Hd; [|destruct i; discriminate].
      destruct (H2 i f v q) as [fs' [ms [Hin' [Hms Hvm]]]].
      { exists fs, nm, lds, d. auto 10. }
      rewrite (Huniq _ Hin') in Hms. eauto. }
    assert (check_loadings_not_zero (get_default (ns_loadings nm) []) f = []) as ->.
    { apply check_loadings_not_zero_nil. intros i d v q Hd Hv.
      destruct (ns_loadings nm) as [lds|] eqn:E; simpl in Hd; [|destruct i; discriminate].
      apply (H1 i f v q). exists fs, nm, lds, d. auto 10. }
    reflexivity.
Qed.

(** ** Stage maps *)

Lemma diffs_ok l :
  forallb (fun d => Z.eqb d 0 || Z.eqb d 1) (diffs l) = true <->
  (forall i a b, nth_error l i = Some a -> nth_error l (S i) = Some b ->
                 b = a \/ b = (a + 1)%Z).
Proof.
  induction l as [|x l IH]; [simpl; split; [intros _ [|i] a b H; discriminate|reflexivity]|].
  destruct l as [|y l].
  - simpl. split; [intros _ [|i] a b _ H; [discriminate|destruct i; discriminate]|reflexivity].
  - change (diffs (x :: y :: l)) with ((y - x)%Z :: diffs (y :: l)).
    simpl forallb. rewrite andb_true_iff, IH, orb_true_iff, !Z.eqb_eq. split.
    + intros [Hd H] [|i] a b Ha Hb.
      * simpl in Ha, Hb. injection Ha as <-. injection Hb as <-. lia.
      * apply (H i); assumption.
    + intros H. split.
      * destruct (H 0 x y eq_refl eq_refl); lia.
      * intros i a b Ha Hb. apply (H (S i)); assumption.
Qed.

(** [zsort_unique] sorts and removes duplicates. *)
Lemma zinsert_In x y l : In y (zinsert x l) <-> y = x \/ In y l.
Proof.
  induction l as [|z l IH]; simpl; [intuition|].
  destruct (Z.eqb_spec x z) as [->|Hne]; simpl; [intuition|].
  destruct (Z.ltb x z); simpl; [intuition|]. rewrite IH. intuition.
Qed.

Lemma zinsert_sorted x l : StronglySorted Z.lt l -> StronglySorted Z.lt (zinsert x l).
Proof.
  induction 1 as [|z l Hs IH Hf]; simpl; [repeat constructor|].
  destruct (Z.eqb_spec x z) as [->|Hne]; [now constructor|].
  destruct (Z.ltb_spec x z) as [Hlt|Hge].
  - constructor; [now constructor|]. constructor; [exact Hlt|].
    rewrite Forall_forall in *. intros y Hy. specialize (Hf y Hy). lia.
  - constructor; [exact IH|]. rewrite Forall_forall in *. intros y Hy.
    apply zinsert_In in Hy. destruct Hy as [->|Hy]; [lia|auto].
Qed.

Lemma zsort_unique_In y l : In y (zsort_unique l) <-> In y l.
Proof.
  induction l as [|x l IH]; simpl; [tauto|]. rewrite zinsert_In, IH. intuition.
Qed.

Lemma zsort_unique_sorted l : StronglySorted Z.lt (zsort_unique l).
Proof. induction l; simpl; [constructor|]. now apply zinsert_sorted. Qed.

Lemma zsorted_unique l1 l2 :
  StronglySorted Z.lt l1 -> StronglySorted Z.lt l2 -> (forall x, In x l1 <-> In x l2) ->
  l1 = l2.
Proof.
  intros H1. revert l2. induction H1 as [|x l1 Hs IH Hf]; intros l2 H2 Heq.
  - destruct l2 as [|y l2]; [reflexivity|]. destruct (proj2 (Heq y)). now left.
  - destruct H2 as [|y l2 Hs2 Hf2].
    + destruct (proj1 (Heq x)). now left.
    + rewrite Forall_forall in Hf, Hf2.
      assert (x = y) as ->.
      { destruct (proj1 (Heq x) (or_introl eq_refl)) as [E|E]; [congruence|].
        destruct (proj2 (Heq y) (or_introl eq_refl)) as [E'|E']; [congruence|].
        specialize (Hf _ E'). specialize (Hf2 _ E). lia. }
      f_equal. apply IH; [exact Hs2|].
      intros z. specialize (Heq z). simpl in Heq. split; intros Hz.
      * destruct (proj1 Heq (or_intror Hz)) as [E|E]; [|exact E].
        specialize (Hf _ Hz). lia.
      * destruct (proj2 Heq (or_intror Hz)) as [E|E]; [|exact E].
        specialize (Hf2 _ Hz). lia.
Qed.

Lemma is_range_from_spec k l :
  is_range_from k l = true <-> l = map (fun i => (k + Z.of_nat i)%Z) (seq 0 (length l)).
Proof.
  revert k. induction l as [|x l IH]; intros k; simpl; [tauto|].
  rewrite andb_true_iff, Z.eqb_eq, IH, <- seq_shift, map_map.
  assert (map (fun i => (k + 1 + Z.of_nat i)%Z) (seq 0 (length l))
          = map (fun i => (k + Z.of_nat (S i))%Z) (seq 0 (length l))) as E.
  { apply map_ext. intros i. lia. }
  rewrite E. split.
  - intros [-> Hl]. rewrite <- Hl. f_equal. lia.
  - intros [= Hx Hl]. split; [lia|exact Hl].
Qed.

Lemma map_of_nat_sorted s k : StronglySorted Z.lt (map Z.of_nat (seq s k)).
Proof.
  revert s. induction k as [|k IH]; intros s; simpl; constructor; [apply IH|].
  apply Forall_forall. intros y Hy. apply in_map_iff in Hy. destruct Hy as [i [<- Hi]].
  apply in_seq in Hi. lia.
Qed.

(** Stages reached by a path with steps 0 or 1 that starts at 0. *)
Lemma steps_between sm :
  (forall z, nth_error sm 0 = Some z -> z = 0%Z) ->
  (forall i a b, nth_error sm i = Some a -> nth_error sm (S i) = Some b ->
                 b = a \/ b = (a + 1)%Z) ->
  forall i z, nth_error sm i = Some z ->
    (0 <= z)%Z /\ forall y, (0 <= y <= z)%Z -> In y sm.
Proof.
  intros H0 Hs. induction i as [|i IH]; intros z Hz.
  - pose proof (H0 z Hz) as ->. split; [lia|]. intros y Hy. assert (y = 0%Z) as -> by lia.
    eapply nth_error_In. exact Hz.
  - assert (i < length sm) as Hi.
    { assert (S i < length sm); [apply nth_error_Some; congruence | lia]. }
    destruct (nth_error sm i) as [a|] eqn:Ha; [|apply nth_error_None in Ha; lia].
    destruct (IH a eq_refl) as [IH1 IH2].
    destruct (Hs i a z Ha Hz) as [->| ->]; [auto|].
    split; [lia|]. intros y Hy.
    destruct (Z.eq_dec y (a + 1)) as [->|Hne]; [eapply nth_error_In; exact Hz|].
    apply IH2. lia.
Qed.

Lemma zsort_unique_len_le l : length (zsort_unique l) <= length l.
Proof.
  induction l as [|x l IH]; simpl; [lia|].
  assert (forall x l, length (zinsert x l) <= S (length l)) as H.
  { clear. intros x l. induction l as [|y l IH]; simpl; [lia|].
    destruct (Z.eqb x y); simpl; [lia|]. destruct (Z.ltb x y); simpl; lia. }
  specialize (H x (zsort_unique l)). lia.
Qed.

Lemma stages_range sm :
  (forall z, nth_error sm 0 = Some z -> z = 0%Z) ->
  (forall i a b, nth_error sm i = Some a -> nth_error sm (S i) = Some b ->
                 b = a \/ b = (a + 1)%Z) ->
  exists k, zsort_unique sm = map Z.of_nat (seq 0 k).
Proof.
  intros H0 Hs.
  destruct sm as [|z sm'] eqn:Esm; [exists 0; reflexivity|]. rewrite <- Esm in *.
  assert (forall l : list Z, l <> [] -> exists m, In m l /\ forall y, In y l -> (y <= m)%Z) as Hmax.
  { induction l as [|x [|y l] IH]; intros Hne; [congruence| |].
    - exists x. split; [now left|]. intros y [->|[]]. lia.
    - destruct IH as [m [Hm Hle]]; [discriminate|].
      destruct (Z_le_gt_dec x m).
      + exists m. split; [now right|]. intros w [<-|Hw]; [lia|auto].
      + exists x. split; [now left|]. intros w [<-|Hw]; [lia|].
        specialize (Hle w Hw). lia. }
  destruct (Hmax sm) as [m [Hm Hle]]; [rewrite Esm; discriminate|].
  exists (S (Z.to_nat m)).
  apply zsorted_unique; [apply zsort_unique_sorted | apply map_of_nat_sorted |].
  pose proof (steps_between sm H0 Hs) as Hb.
  apply In_nth_error in Hm. destruct Hm as [im Him]. destruct (Hb _ _ Him) as [Hm0 Hmall].
  intros x. rewrite zsort_unique_In, in_map_iff. split.
  - intros Hx. exists (Z.to_nat x).
    pose proof (Hle x Hx). apply In_nth_error in Hx. destruct Hx as [ix Hix].
    destruct (Hb _ _ Hix) as [Hx0 _]. split; [lia|]. apply in_seq. lia.
  - intros [i [<- Hi]]. apply in_seq in Hi. apply Hmall. lia.
Qed.

Lemma check_stagemap_valid sm n :
  check_stagemap sm (zsort_unique sm) n = [] <-> valid_stagemap n sm.
Proof.
  unfold check_stagemap, valid_stagemap. split.
  - intros H. apply app_eq_nil in H. destruct H as [H1 H].
    apply app_eq_nil in H. destruct H as [H2 H3].
    destruct (Z.eqb_spec (Z.of_nat (length sm)) (Z.of_nat n - 1)) as [Hl|]; [|discriminate].
    destruct (is_range_from 0 (zsort_unique sm)) eqn:Er; [|discriminate].
    destruct (forallb _ (diffs sm)) eqn:Ed; [|discriminate].
    apply is_range_from_spec in Er.
    pose proof (proj1 (diffs_ok sm) Ed) as Hs.
    split; [lia|]. split; [lia|]. split; [|exact Hs].
    intros z Hz.
    (* the minimum is the first entry *)
    assert (forall i y, nth_error sm i = Some y -> (z <= y)%Z) as Hmin.
    { induction i as [|i IH]; intros y Hy; [congruence || (rewrite Hz in Hy; injection Hy; lia)|].
      assert (i < length sm) as Hi.
      { assert (S i < length sm); [apply nth_error_Some; congruence | lia]. }
      destruct (nth_error sm i) as [a|] eqn:Ha; [|apply nth_error_None in Ha; lia].
      specialize (IH a eq_refl). destruct (Hs i a y Ha Hy); lia. }
    assert (In z (zsort_unique sm)) as Hzin by (apply zsort_unique_In; eapply nth_error_In; eauto).
    assert (In 0%Z (zsort_unique sm)) as H0.
    { rewrite Er. destruct (zsort_unique sm) as [|y l] eqn:E; [destruct Hzin|]. now left. }
    rewrite Er in Hzin. apply in_map_iff in Hzin. destruct Hzin as [k [Hk _]].
    apply (proj1 (zsort_unique_In _ _)) in H0. apply In_nth_error in H0. destruct H0 as [i0 Hi0].
    specialize (Hmin _ _ Hi0). lia.
  - intros [Hn [Hl [H0 Hs]]].
    assert (Z.eqb (Z.of_nat (length sm)) (Z.of_nat n - 1) = true) as -> by (apply Z.eqb_eq; lia).
    destruct (stages_range sm H0 Hs) as [k Hk].
    assert (is_range_from 0 (zsort_unique sm) = true) as ->.
    { apply is_range_from_spec. rewrite Hk, map_length, seq_length. apply map_ext.
      intros i. lia. }
    apply diffs_ok in Hs. rewrite Hs. reflexivity.
Qed.

(** ** Transition functions *)

Lemma tf_of_string_known s : (exists t, tf_of_string s = Some t) <-> In s known_transition_functions.
Proof.
  unfold tf_of_string, known_transition_functions. split.
  - intros [t Ht].
    repeat match type of Ht with
           | (if String.eqb s ?x then _ else _) = _ =>
               destruct (String.eqb_spec s x) as [->|]; [simpl; tauto|]
           end. discriminate.
  - simpl. intros H.
    repeat destruct H as [<-|H]; try (eexists; reflexivity). destruct H.
Qed.

Lemma transition_of_spec_valid all t :
  (exists r, transition_of_spec all t = Ok r) <-> valid_transition t.
Proof.
  unfold valid_transition, transition_of_spec. split.
  - intros [r Hr]. destruct t as [s|n ps|]; [|destruct n, ps; try discriminate|discriminate].
    + left. exists s. split; [reflexivity|]. apply tf_of_string_known.
      destruct (tf_of_string s); [eauto|discriminate].
    + right. eauto.
  - intros [[s [-> Hs]]|[n [ps ->]]]; [|eauto].
    apply tf_of_string_known in Hs. destruct Hs as [t ->]. eauto.
Qed.

(** ** Acceptance *)

Lemma process_normalizations_ok md d :
  NoDup (map fst (md_factors md)) ->
  (exists r, process_normalizations md d (get_labels md d) = Ok r) <->
  (forall f fs nm l, In (f, fs) (md_factors md) -> fs_norm fs = Some nm ->
     ns_loadings nm = Some l \/ ns_intercepts nm = Some l -> length l <= n_periods d).
Proof.
  intros Hnd. unfold process_normalizations.
  change (l_latent (get_labels md d)) with (map fst (md_factors md)).
  rewrite mapM_map. split.
  - intros [r Hr] f fs nm l Hin Hnm Hl.
    destruct (mapM_In _ _ _ _ Hr Hin) as [y [Hy _]]. simpl in Hy.
    unfold dget_err in Hy. rewrite (In_dget _ _ _ Hnd Hin) in Hy. simpl in Hy.
    rewrite Hnm in Hy. simpl in Hy.
    apply rbind_ok in Hy. destruct Hy as [r1 [H1 Hy]].
    apply rbind_ok in Hy. destruct Hy as [r2 [H2 _]].
    apply fill_list_inv in H1. apply fill_list_inv in H2.
    destruct Hl as [Hl|Hl]; rewrite Hl in *; simpl in *; tauto.
  - intros H. apply mapM_total. intros [f fs] Hin. simpl.
    unfold dget_err. rewrite (In_dget _ _ _ Hnd Hin). simpl.
    destruct (fs_norm fs) as [nm|] eqn:Hnm; simpl.
    + rewrite fill_list_ok.
      2: { destruct (ns_loadings nm) eqn:E; simpl; [eapply H; eauto|lia]. }
      simpl. rewrite fill_list_ok; [simpl; eauto|].
      destruct (ns_intercepts nm) eqn:E; simpl; [eapply H; eauto|lia].
    + eauto.
Qed.

Lemma get_transition_info_ok md d :
  NoDup (map fst (md_factors md)) ->
  (exists r, get_transition_info md (get_labels md d) = Ok r) <->
  (forall f fs, In (f, fs) (md_factors md) -> valid_transition (fs_transition fs)).
Proof.
  intros Hnd. unfold get_transition_info.
  change (l_latent (get_labels md d)) with (map fst (md_factors md)).
  rewrite mapM_map. split.
  - intros [r Hr] f fs Hin. apply rbind_ok in Hr. destruct Hr as [infos [Hr _]].
    destruct (mapM_In _ _ _ _ Hr Hin) as [y [Hy _]]. simpl in Hy.
    unfold dget_err in Hy. rewrite (In_dget _ _ _ Hnd Hin) in Hy. simpl in Hy.
    apply transition_of_spec_valid with (all := l_all (get_labels md d)). eauto.
  - intros H.
    assert (exists r, mapM (fun x => do fs <- dget_err (md_factors md) (fst x);
              transition_of_spec (l_all (get_labels md d)) (fs_transition fs))
              (md_factors md) = Ok r) as [r ->]; [|simpl; eauto].
    apply mapM_total. intros [f fs] Hin. simpl. unfold dget_err.
    rewrite (In_dget _ _ _ Hnd Hin). simpl. apply transition_of_spec_valid. eauto.
Qed.

Lemma l_stagemap_eq md d :
  l_stagemap (get_labels md d) = stagemap_of md (n_periods d).
Proof. unfold get_labels, stagemap_of, get_default, range. simpl. now destruct (md_stagemap md). Qed.

Lemma l_stages_eq md d :
  l_stages (get_labels md d) = zsort_unique (stagemap_of md (n_periods d)).
Proof. rewrite <- l_stagemap_eq. reflexivity. Qed.

Lemma check_model_ok md d :
  NoDup (map fst (md_factors md)) ->
  check_model md (get_labels md d) d = Ok tt <->
  valid_stagemap (n_periods d) (stagemap_of md (n_periods d)) /\
  (forall p f v q, normalized_loading md p f v q -> measures md p f v /\ ~ (q == 0)%Q) /\
  (forall p f v q, normalized_intercept md p f v q -> measures md p f v).
Proof.
  intros Hnd. rewrite <- (check_normalizations_nil md Hnd), <- check_stagemap_valid.
  unfold check_model. rewrite l_stages_eq, l_stagemap_eq.
  change (l_latent (get_labels md d)) with (latent_of md).
  destruct (check_normalizations md (latent_of md)) as [rn|e]; simpl.
  - destruct (check_stagemap _ _ _ ++ rn) as [|x l] eqn:E.
    + apply app_eq_nil in E. destruct E as [-> ->]. tauto.
    + split; [discriminate|]. intros [H1 H2]. injection H2 as ->. rewrite H1 in E. discriminate.
  - split; [discriminate|]. intros [_ H]. discriminate.
Qed.

Theorem process_model_accepts md :
  wf_dicts md ->
  (exists p, process_model md = Ok p) <->
  md_options md <> None /\
  exists n, has_n_periods md n /\
    valid_stagemap n (stagemap_of md n) /\
    valid_normalizations md n /\
    (forall f fs, In (f, fs) (md_factors md) -> valid_transition (fs_transition fs)).
Proof.
  intros Hwf. pose proof (proj1 Hwf) as Hnd. split.
  - intros [p Hp]. apply process_model_inv in Hp.
    destruct Hp as [Hd [Hl [Ha [_ [Hc [Ht [Hu Hn]]]]]]].
    rewrite Hl in *.
    pose proof (proj1 (get_dimensions_ok md (p_dims p)) Hd) as [o [Ho [Hper _]]].
    split; [congruence|]. exists (n_periods (p_dims p)). split; [exact Hper|].
    apply check_model_ok in Hc; [|exact Hnd]. destruct Hc as [H1 [H2 H3]].
    split; [exact H1|]. split.
    + split; [exact H2|]. split; [exact H3|].
      apply (process_normalizations_ok md (p_dims p) Hnd). eauto.
    + apply (get_transition_info_ok md (p_dims p) Hnd). eauto.
  - intros [Ho [n [Hper [Hsm [[Hn1 [Hn2 Hn3]] Ht]]]]].
    destruct (md_options md) as [o|] eqn:Eo; [|congruence].
    set (d := mk_dims (length (md_factors md)) (length (observed_of md)) n
                (length (controls_of md) + 1) (n_mixtures_of md)).
    assert (get_dimensions md = Ok d) as Hd.
    { apply get_dimensions_ok. exists o. auto. }
    destruct (proj2 (process_normalizations_ok md d Hnd) Hn3) as [rn Hrn].
    destruct (proj2 (get_transition_info_ok md d Hnd) Ht) as [rt Hrt].
    assert (check_model md (get_labels md d) d = Ok tt) as Hc.
    { apply check_model_ok; auto. }
    eexists. eapply process_model_intro; eauto.
    apply get_update_info_events; auto.
Qed.
