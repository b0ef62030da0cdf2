(** C102: model specifications with values of the wrong type. *)
Require Import String Ascii Arith ZArith QArith Bool Sorted List Lia.
From Verif Require Import PyBase ModelSpec ProcessModel CheckModel RawModel SpecModel SpecRawModel ListFacts AcceptFacts ScheduleFacts.
Import ListNotations.
Open Scope string_scope.
Open Scope list_scope.
Open Scope nat_scope.

Lemma mapM_concat {A B} (f : A -> result (list B)) l out p :
  rmap (@concat B) (mapM f l) = Ok out ->
  (In p out <-> exists x part, In x l /\ f x = Ok part /\ In p part).
Proof.
  intros H. apply rmap_ok in H. destruct H as [ys [H ->]]. rewrite in_concat. split.
  - intros [part [Hp Hin]]. destruct (mapM_In_inv _ _ _ _ H Hp) as [x [Hx Hl]]. eauto.
  - intros [x [part [Hl [Hx Hin]]]]. destruct (mapM_In _ _ _ _ H Hl) as [y [Hy Hys]].
    rewrite Hx in Hy. injection Hy as <-. eauto.
Qed.

Lemma mapM_concat_each {A B} (f : A -> result (list B)) l out x :
  rmap (@concat B) (mapM f l) = Ok out -> In x l -> exists part, f x = Ok part.
Proof.
  intros H Hx. apply rmap_ok in H. destruct H as [ys [H _]].
  destruct (mapM_In _ _ _ _ H Hx) as [y [Hy _]]. eauto.
Qed.

Lemma concat_total {A B} (f : A -> result (list B)) l :
  (forall x, In x l -> exists y, f x = Ok y) -> exists out, rmap (@concat B) (mapM f l) = Ok out.
Proof. intros H. destruct (mapM_total f l H) as [ys E]. rewrite E. simpl. eauto. Qed.

(** *** Python values *)

Lemma number_iff a x : number a = Some x <-> numeric a x.
Proof.
  split.
  - destruct a as [|[]| | | | | | |]; simpl; try discriminate; intros [= <-]; constructor.
  - intros []; reflexivity.
Qed.

Lemma key_eq_iff : forall a b, key_eq a b = true <-> same_value a b.
Proof.
  assert (N : forall a b, (match number a, number b with Some x, Some y => Qeq_bool x y | _, _ => false end) = true <->
    exists x y, numeric a x /\ numeric b y /\ (x == y)%Q).
  { intros a b. split.
    - destruct (number a) as [x|] eqn:Ea; [|discriminate]. destruct (number b) as [y|] eqn:Eb; [|discriminate].
      intros E. exists x, y. rewrite <- !number_iff, <- Qeq_bool_iff. auto.
    - intros [x [y [Ha [Hb E]]]]. apply number_iff in Ha. apply number_iff in Hb. rewrite Ha, Hb. now apply Qeq_bool_iff. }
  assert (NS : forall a b, (exists x y, numeric a x /\ numeric b y /\ (x == y)%Q) -> same_value a b).
  { intros a b [x [y [Ha [Hb E]]]]. exact (same_number a b x y Ha Hb E). }
  fix IH 1. intros a b.
  destruct a as [|ba|z|q|s|l|l|it|i], b as [|bb|z'|q'|s'|l'|l'|it'|i'];
    try (change (key_eq ?a ?b) with (match number a, number b with Some x, Some y => Qeq_bool x y | _, _ => false end);
         rewrite N; split; [apply NS|intros H; inversion H; subst; eauto]; fail).
  - split; [constructor|reflexivity].
  - cbn [key_eq]. rewrite String.eqb_eq. split; [intros ->; constructor|]. intros H. inversion H as [|s0|? ? ? ? Hx| |]; subst; [reflexivity|inversion Hx].
  - cbn [key_eq]. revert l'. induction l as [|x l IHl]; intros [|y m].
    + split; [repeat constructor|reflexivity].
    + split; [discriminate|]. intros H. inversion H as [| |? ? ? ? Hx|? ? F|]; subst; [inversion Hx|inversion F].
    + split; [discriminate|]. intros H. inversion H as [| |? ? ? ? Hx|? ? F|]; subst; [inversion Hx|inversion F].
    + rewrite andb_true_iff, IH, IHl. split.
      * intros [A B]. inversion B as [| |? ? ? ? Hx|? ? F|]; subst; [inversion Hx|]. repeat constructor; assumption.
      * intros H. inversion H as [| |? ? ? ? Hx|? ? F|]; subst; [inversion Hx|]. inversion F; subst. repeat constructor; assumption.
  - cbn [key_eq]. rewrite Nat.eqb_eq. split; [intros ->; constructor|]. intros H. inversion H as [| |? ? ? ? Hx| |]; subst; [inversion Hx|reflexivity].
Qed.

Lemma items_get_Some items key v : items_get items key = Some v <-> has_item items key v.
Proof.
  induction items as [|[k x] items IH]; cbn [items_get].
  - split; [discriminate|]. intros [pre [k [post [E _]]]]. now destruct pre.
  - destruct (key_eq key k) eqn:E.
    + apply key_eq_iff in E. split.
      * intros [= ->]. exists [], k, items. split; [reflexivity|]. split; [exact E|]. intros ? ? [].
      * intros [[|[k0 x0] pre] [k' [post [Ei [Hk Hno]]]]].
        -- cbn [app] in Ei. congruence.
        -- cbn [app] in Ei. injection Ei as <- <- _. destruct (Hno k x); [now left|exact E].
    + assert (~ same_value key k) as Hne by (intros F; apply key_eq_iff in F; congruence). rewrite IH. split.
      * intros [pre [k' [post [-> [Hk Hno]]]]]. exists ((k, x) :: pre), k', post. split; [reflexivity|]. split; [exact Hk|].
        intros k0 v0 [F|Hin]; [now injection F as <- _|now apply (Hno k0 v0)].
      * intros [[|[k0 x0] pre] [k' [post [Ei [Hk Hno]]]]].
        -- cbn [app] in Ei. injection Ei as <- _ _. now destruct Hne.
        -- cbn [app] in Ei. injection Ei as _ _ ->. exists pre, k', post. split; [reflexivity|]. split; [exact Hk|].
           intros k1 v1 Hin. apply (Hno k1 v1). now right.
Qed.

Lemma items_get_None items key : items_get items key = None <-> no_item items key.
Proof.
  unfold no_item. induction items as [|[k x] items IH]; cbn [items_get].
  - split; [intros _ ? ? []|reflexivity].
  - destruct (key_eq key k) eqn:E.
    + split; [discriminate|]. intros H. destruct (H k x); [now left|]. now apply key_eq_iff.
    + rewrite IH. split.
      * intros H k0 v0 [F|Hin]; [|now apply (H k0 v0)]. injection F as <- _. intros F. apply key_eq_iff in F. congruence.
      * intros H k0 v0 Hin. apply (H k0 v0). now right.
Qed.

Lemma chars_nth s : forall t x, nth_error (chars s) t = Some x <-> exists c, String.get t s = Some c /\ x = VStr (String c EmptyString).
Proof.
  induction s as [|c s IH]; intros [|t] x; cbn [chars nth_error String.get].
  - split; [discriminate|intros [c [? _]]; discriminate].
  - split; [discriminate|intros [c [? _]]; discriminate].
  - split; [intros [= <-]; eauto|intros [c' [[= <-] ->]]; reflexivity].
  - apply IH.
Qed.

Lemma nth_err_ok {A} (l : list A) t x : nth_err l t = Ok x <-> nth_error l t = Some x.
Proof. unfold nth_err. destruct (nth_error l t); split; congruence. Qed.

Lemma py_nth_ok v t x : py_nth v t = Ok x <-> element_at v t x.
Proof.
  destruct v as [| | | |s|l|l|items|]; cbn [py_nth]; try (split; [discriminate|intros H; inversion H]; fail).
  - rewrite nth_err_ok, chars_nth. split; [intros [c [E ->]]; now constructor|]. intros H. inversion H; subst. eauto.
  - rewrite nth_err_ok. split; [now constructor|]. intros H. now inversion H.
  - rewrite nth_err_ok. split; [now constructor|]. intros H. now inversion H.
  - assert (items_get items (VInt (Z.of_nat t)) = Some x <-> element_at (VDict items) t x) as <-.
    { rewrite items_get_Some. split; [now constructor|]. intros H. now inversion H. }
    destruct (items_get items (VInt (Z.of_nat t))); split; congruence.
Qed.

Lemma prefix_iff s : forall t, String.prefix s t = true <-> exists after, t = (s ++ after)%string.
Proof.
  induction s as [|c s IH]; intros [|d t]; cbn [String.prefix String.append].
  - split; [intros _; now exists EmptyString|reflexivity].
  - split; [eauto|reflexivity].
  - split; [discriminate|intros [? ?]; discriminate].
  - destruct (Ascii.ascii_dec c d) as [->|N].
    + rewrite IH. split; intros [after E]; exists after; congruence.
    + split; [discriminate|]. intros [after [= ->]]. now destruct N.
Qed.

Lemma is_substring_iff s t : is_substring s t = true <-> exists before after, t = (before ++ (s ++ after))%string.
Proof.
  induction t as [|c t IH]; cbn [is_substring]; rewrite orb_true_iff, prefix_iff.
  - split.
    + intros [[after E]|?]; [|discriminate]. now exists EmptyString, after.
    + intros [[|c b] [after E]]; [left; now exists after|discriminate].
  - rewrite IH. split.
    + intros [[after E]|[b [after E]]]; [now exists EmptyString, after|]. exists (String c b), after. simpl. congruence.
    + intros [[|c' b] [after E]]; [left; now exists after|]. right. injection E as _ E. now exists b, after.
Qed.

Lemma existsb_key x l : existsb (key_eq x) l = true <-> exists y, In y l /\ same_value x y.
Proof. rewrite existsb_exists. split; intros [y [A B]]; exists y; split; auto; now apply key_eq_iff. Qed.

Lemma py_in_ok x v : py_in x v = Ok true <-> contains v x.
Proof.
  destruct v as [| | | |s|l|l|items|]; cbn [py_in]; try (split; [discriminate|intros H; inversion H]; fail).
  - destruct x as [| | | |s'| | | |]; try (split; [discriminate|intros H; inversion H]; fail).
    split.
    + intros [= E]. apply is_substring_iff in E. destruct E as [b [after ->]]. constructor.
    + intros H. inversion H; subst. f_equal. apply is_substring_iff. eauto.
  - split.
    + intros [= E]. apply existsb_key in E. destruct E as [y [A B]]. econstructor; eassumption.
    + intros H. inversion H; subst. f_equal. apply existsb_key. eauto.
  - split.
    + intros [= E]. apply existsb_key in E. destruct E as [y [A B]]. econstructor; eassumption.
    + intros H. inversion H; subst. f_equal. apply existsb_key. eauto.
  - split.
    + intros [= E]. apply existsb_key in E. destruct E as [y [A B]]. apply in_map_iff in A. destruct A as [[k v] [<- A]].
      econstructor; [exact A|exact B].
    + intros H. inversion H as [| |? ? k v Hin Hs|]; subst. f_equal. apply existsb_key. exists k. split; [|exact Hs].
      apply in_map_iff. now exists (k, v).
Qed.

Lemma chars_length s : length (chars s) = String.length s.
Proof. induction s; simpl; congruence. Qed.

Lemma py_len_ok v n : py_len v = Ok n <-> has_length v n.
Proof.
  unfold py_len. destruct v as [| | | |s|l|l|items|]; simpl; try (split; [discriminate|intros H; inversion H]; fail);
    rewrite ?chars_length, ?map_length; (split; [intros [= <-]; constructor|intros H; inversion H; reflexivity]).
Qed.

Lemma iterable_iff v : iterable v <-> exists l, py_list v = Ok l.
Proof.
  unfold iterable. split.
  - intros [n H]. inversion H; subst; simpl; eauto.
  - intros [l H]. exists (length l). apply py_len_ok. unfold py_len. now rewrite H.
Qed.

Lemma py_item_ok v key x : py_item v key = Ok x <-> entry v key x.
Proof.
  unfold py_item, entry. destruct v; try (split; [discriminate|intros [? [? _]]; discriminate]).
  split.
  - intros H. exists items. split; [reflexivity|]. apply items_get_Some. destruct (items_get items (VStr key)); congruence.
  - intros [i [[= <-] E]]. apply items_get_Some in E. now rewrite E.
Qed.

Lemma py_get_ok v key d x : py_get v key d = Ok x <-> entry_or v key d x.
Proof.
  unfold py_get, entry_or. destruct v; try (split; [discriminate|intros [? [? _]]; discriminate]).
  split.
  - intros H. exists items. split; [reflexivity|]. rewrite <- items_get_Some, <- items_get_None.
    destruct (items_get items (VStr key)); injection H as <-; auto.
  - intros [i [[= <-] H]]. rewrite <- items_get_Some, <- items_get_None in H. destruct H as [E|[E ->]]; now rewrite E.
Qed.

Lemma entry_fun v key x y : entry v key x -> entry v key y -> x = y.
Proof. rewrite <- !py_item_ok. congruence. Qed.

Lemma entry_or_fun v key d x y : entry_or v key d x -> entry_or v key d y -> x = y.
Proof. rewrite <- !py_get_ok. congruence. Qed.

Lemma normalization_fun spec t x y : normalization spec t x -> normalization spec t y -> x = y.
Proof.
  intros [n [Hn Hx]] [n' [Hn' Hy]]. pose proof (entry_or_fun _ _ _ _ _ Hn Hn') as <-.
  exact (entry_or_fun _ _ _ _ _ Hx Hy).
Qed.

Lemma is_bool_iff v : is_bool v = true <-> boolean v.
Proof. unfold boolean. destruct v; simpl; split; try discriminate; eauto; intros [? ?]; discriminate. Qed.

Lemma is_name_iff v : is_name v = true <-> column_name v.
Proof.
  unfold column_name. destruct v; simpl; split; try discriminate; eauto 6;
    intros [[? ?]|[[? ?]|[[? ?]|[? ?]]]]; discriminate.
Qed.

Lemma list_of_lists_iff v : is_list_of is_list v = true <-> list_of_lists v.
Proof.
  unfold is_list_of, list_of_lists. destruct v; try (split; [discriminate|intros [? [? _]]; discriminate]).
  rewrite forallb_forall. split.
  - intros H. exists l. split; [reflexivity|]. intros x Hx. specialize (H x Hx). destruct x; try discriminate. eauto.
  - intros [l' [[= <-] H]] x Hx. destruct (H x Hx) as [m ->]. reflexivity.
Qed.

Lemma list_of_dicts_iff v : is_list_of is_dict v = true <-> list_of_dicts v.
Proof.
  unfold is_list_of, list_of_dicts, dictionary. destruct v; try (split; [discriminate|intros [? [? _]]; discriminate]).
  rewrite forallb_forall. split.
  - intros H. exists l. split; [reflexivity|]. intros x Hx. specialize (H x Hx). destruct x; try discriminate. eauto.
  - intros [l' [[= <-] H]] x Hx. destruct (H x Hx) as [m ->]. reflexivity.
Qed.

Lemma is_zero_iff v : is_zero v = true <-> equals_zero v.
Proof.
  unfold is_zero, equals_zero. destruct v as [|b|z|q|s|l|l|items|i]; simpl;
    try (split; [discriminate|intros [?|[?|[? [? _]]]]; discriminate]).
  - destruct b; simpl; split; auto; try discriminate. intros [?|[?|[? [? _]]]]; discriminate.
  - rewrite Qeq_bool_iff. unfold inject_Z, Qeq. simpl. split.
    + intros H. right. left. f_equal. lia.
    + intros [?|[[= ->]|[? [? _]]]]; try discriminate. reflexivity.
  - rewrite Qeq_bool_iff. split.
    + eauto.
    + intros [?|[?|[x [[= <-] H]]]]; try discriminate. exact H.
Qed.

Lemma if_nil {A} (b : bool) (x p : A) : In p (if b then [] else [x]) <-> b <> true /\ p = x.
Proof. destruct b; simpl; intuition congruence. Qed.

Lemma if_one {A} (b : bool) (x p : A) : In p (if b then [x] else []) <-> b = true /\ p = x.
Proof. destruct b; simpl; intuition congruence. Qed.

(** *** the parts of the report *)

Lemma check_bool_In key v p : In p (check_bool key v) <-> ~ boolean v /\ p = RNotBool key.
Proof. unfold check_bool. rewrite if_nil, is_bool_iff. tauto. Qed.

Lemma diffs_false sm :
  forallb (fun d => Z.eqb d 0 || Z.eqb d 1) (diffs sm) <> true <->
  exists i a b, nth_error sm i = Some a /\ nth_error sm (S i) = Some b /\ b <> a /\ b <> (a + 1)%Z.
Proof.
  split.
  - induction sm as [|x [|y l] IH]; simpl; try congruence.
    intros H. destruct (Z.eqb (y - x) 0 || Z.eqb (y - x) 1) eqn:E.
    + destruct (IH H) as [i [a [b [H1 [H2 [H3 H4]]]]]]. exists (S i), a, b. auto.
    + apply orb_false_iff in E. destruct E as [E1 E2]. apply Z.eqb_neq in E1. apply Z.eqb_neq in E2.
      exists 0, x, y. repeat split; auto; lia.
  - intros [i [a [b [H1 [H2 [H3 H4]]]]]] H. pose proof (proj1 (diffs_ok sm) H) as K.
    destruct (K i a b H1 H2); contradiction.
Qed.

Lemma stages_iff sm :
  is_range_from 0 (zsort_unique sm) = true <-> exists k, forall z, In z sm <-> (0 <= z < Z.of_nat k)%Z.
Proof.
  rewrite is_range_from_spec. split.
  - intros H. exists (length (zsort_unique sm)). intros z. rewrite <- zsort_unique_In, H at 1.
    rewrite in_map_iff. split.
    + intros [i [<- Hi]]. apply in_seq in Hi. lia.
    + intros Hz. exists (Z.to_nat z). split; [lia|]. apply in_seq. lia.
  - intros [k H].
    assert (zsort_unique sm = map Z.of_nat (seq 0 k)) as ->.
    { apply zsorted_unique; [apply zsort_unique_sorted|apply map_of_nat_sorted|]. intros x.
      rewrite zsort_unique_In, H, in_map_iff. split.
      - intros Hx. exists (Z.to_nat x). split; [lia|]. apply in_seq. lia.
      - intros [i [<- Hi]]. apply in_seq in Hi. lia. }
    rewrite map_length, seq_length. apply map_ext. intros i. lia.
Qed.

Lemma check_stagemap_In sm n p :
  In p (check_stagemap sm (zsort_unique sm) n) <->
  (p = StagemapLength /\ length sm + 1 <> n) \/
  (p = StagesNotConsecutive /\ ~ exists k, forall z, In z sm <-> (0 <= z < Z.of_nat k)%Z) \/
  (p = StagemapStep /\ exists i a b, nth_error sm i = Some a /\ nth_error sm (S i) = Some b /\ b <> a /\ b <> (a + 1)%Z).
Proof.
  unfold check_stagemap. rewrite !in_app_iff, !if_nil, Z.eqb_eq, stages_iff, diffs_false.
  assert ((Z.of_nat (length sm) <> Z.of_nat n - 1)%Z <-> length sm + 1 <> n) as -> by lia.
  tauto.
Qed.

Section Report.
  Variables (r : raw_model) (d : raw_dims) (l : raw_labels) (a : raw_anchinfo) (report : list raw_problem).
  Hypothesis processed : raw_process r = Ok (d, l, a, report).

  Lemma process_parts :
    raw_dimensions r = Ok d /\ raw_labels_of r d = Ok l /\ raw_anchoring r = Ok a /\ raw_report r l d a = Ok report.
  Proof.
    unfold raw_process in processed. apply rbind_ok in processed. destruct processed as [d' [Hd H]].
    apply rbind_ok in H. destruct H as [l' [Hl H]]. apply rbind_ok in H. destruct H as [a' [Ha H]].
    apply rbind_ok in H. destruct H as [rep [Hr H]]. injection H as -> -> -> ->. auto.
  Qed.

  Lemma items_exist : exists items, rw_factors r = Some (VDict items) /\ raw_items r = Ok items.
  Proof.
    destruct process_parts as [Hd _]. unfold raw_dimensions in Hd. apply rbind_ok in Hd.
    destruct Hd as [items [Hi _]]. exists items. split; [|exact Hi].
    unfold raw_items in Hi. apply rbind_ok in Hi. destruct Hi as [v [Hv Hi]].
    unfold raw_entry in Hv. destruct (rw_factors r); [|discriminate]. injection Hv as ->.
    destruct v; try discriminate. now injection Hi as ->.
  Qed.

  Lemma factor_of_items items f spec : rw_factors r = Some (VDict items) -> (factor_of r f spec <-> In (f, spec) items).
  Proof.
    intros E. unfold factor_of. rewrite E. split.
    - intros [i [[= <-] H]]. exact H.
    - eauto.
  Qed.

  Lemma py_max_In (ns : list nat) n : py_max ns = Ok n -> In n ns /\ forall k, In k ns -> k <= n.
  Proof.
    destruct ns as [|x ns]; [discriminate|]. simpl. intros [= <-].
    revert x. induction ns as [|y ns IH]; intros x; simpl.
    - split; [auto|]. intros k [->|[]]. lia.
    - destruct (IH (Nat.max x y)) as [H1 H2]. split.
      + destruct H1 as [H1|H1]; [|auto]. rewrite <- H1. destruct (Nat.max_spec x y) as [[_ ->]|[_ ->]]; auto.
      + intros k [->|[->|Hk]].
        * etransitivity; [|apply H2; now left]. lia.
        * etransitivity; [|apply H2; now left]. lia.
        * apply H2. now right.
  Qed.

  Lemma periods_right : periods_of r (rd_periods d).
  Proof.
    destruct process_parts as [Hd _]. destruct items_exist as [items [Ef Ei]].
    unfold raw_dimensions in Hd. rewrite Ei in Hd. simpl in Hd.
    apply rbind_ok in Hd. destruct Hd as [ns [Hns Hd]]. apply rbind_ok in Hd. destruct Hd as [no [_ Hd]].
    apply rbind_ok in Hd. destruct Hd as [np [Hm Hd]]. apply rbind_ok in Hd. destruct Hd as [nc [_ Hd]].
    apply rbind_ok in Hd. destruct Hd as [o [_ Hd]]. apply rbind_ok in Hd. destruct Hd as [nm [_ Hd]].
    injection Hd as <-. simpl. destruct (py_max_In _ _ Hm) as [H1 H2]. split.
    - intros f spec m k Hf He Hk. apply py_len_ok in Hk. apply (factor_of_items items) in Hf; [|exact Ef].
      destruct (mapM_In _ _ _ _ Hns Hf) as [y [Hy Hin]]. simpl in Hy.
      apply py_item_ok in He. rewrite He in Hy. simpl in Hy. rewrite Hk in Hy. injection Hy as <-. auto.
    - destruct (mapM_In_inv _ _ _ _ Hns H1) as [[f spec] [Hy Hin]]. simpl in Hy.
      apply rbind_ok in Hy. destruct Hy as [m [He Hm']]. apply py_item_ok in He. apply py_len_ok in Hm'.
      exists f, spec, m. split; [|auto]. now apply (factor_of_items items).
  Qed.

  Lemma labels_right : rl_stagemap l = raw_stagemap r (rd_periods d) /\ rl_stages l = zsort_unique (rl_stagemap l).
  Proof.
    destruct process_parts as [_ [Hl _]]. unfold raw_labels_of in Hl.
    apply rbind_ok in Hl. destruct Hl as [items [_ Hl]]. apply rbind_ok in Hl. destruct Hl as [ob [_ Hl]].
    apply rbind_ok in Hl. destruct Hl as [c [_ Hl]]. injection Hl as <-. simpl. auto.
  Qed.

  (** anchoring *)
  Lemma anchoring_In p :
    In p (raw_check_anchoring a) <->
    (p = ROutcomesNotDict /\ exists v, anchoring_entry r "outcomes" v /\ ~ dictionary v) \/
    (p = ROutcomeName /\ exists items f o, anchoring_entry r "outcomes" (VDict items) /\ In (f, o) items /\ ~ column_name o) \/
    (exists key v, p = RNotBool key /\ In key ["free_controls"; "free_constant"; "free_loadings"] /\
       anchoring_entry r key v /\ ~ boolean v).
  Proof.
    destruct process_parts as [_ [_ [Ha _]]]. unfold raw_anchoring in Ha. unfold anchoring_entry, entry.
    setoid_rewrite <- items_get_Some.
    destruct (rw_anchoring r) as [an|].
    2: { injection Ha as <-. simpl. split; [tauto|].
         intros [[_ [v [[x [E _]] _]]]|[[_ [i [f [o [[x [E _]] _]]]]]|[k [v [_ [_ [[x [E _]] _]]]]]]]; discriminate. }
    destruct an as [| | | | | | |ai|]; try discriminate.
    apply rbind_ok in Ha. destruct Ha as [fs [_ Ha]]. injection Ha as <-.
    unfold raw_check_anchoring. simpl ra_anchoring. simpl ra_outcomes. simpl ra_free_controls. simpl ra_free_constant. simpl ra_free_loadings.
    change (check_bool "anchoring" (VBool true)) with (@nil raw_problem). rewrite app_nil_l, !in_app_iff, !check_bool_In.
    assert (forall (key : string) (P : pyval -> Prop),
      (exists v, (exists a0, Some (VDict ai) = Some a0 /\ (exists items, a0 = VDict items /\ items_get items (VStr key) = Some v)) /\ P v)
      <-> exists v, items_get ai (VStr key) = Some v /\ P v) as En.
    { intros key P. split.
      - intros [v [[a0 [E0 [it [E1 E]]]] HP]]. injection E0 as <-. injection E1 as <-. eauto.
      - intros [v [E HP]]. eauto 10. }
    rewrite (En "outcomes" (fun v => ~ dictionary v)).
    assert (forall key, ~ boolean (match items_get ai (VStr key) with Some x => x | None => VBool false end) <->
              exists v, items_get ai (VStr key) = Some v /\ ~ boolean v) as Eb.
    { intros key. destruct (items_get ai (VStr key)) as [v|].
      - split; [eauto|]. intros [w [[= <-] H]]. exact H.
      - split; [|intros [v [? _]]; discriminate]. intros H. destruct H. exists false. reflexivity. }
    rewrite !Eb.
    assert ((exists (key : string) (v : pyval), p = RNotBool key /\ In key ["free_controls"; "free_constant"; "free_loadings"] /\
       (exists a0, Some (VDict ai) = Some a0 /\ (exists items, a0 = VDict items /\ items_get items (VStr key) = Some v)) /\ ~ boolean v)
      <-> ((exists v, items_get ai (VStr "free_controls") = Some v /\ ~ boolean v) /\ p = RNotBool "free_controls") \/
          ((exists v, items_get ai (VStr "free_constant") = Some v /\ ~ boolean v) /\ p = RNotBool "free_constant") \/
          ((exists v, items_get ai (VStr "free_loadings") = Some v /\ ~ boolean v) /\ p = RNotBool "free_loadings")) as Ek.
    { split.
      - intros [key [v [-> [Hk [[a0 [E0 [it [E1 E]]]] HP]]]]]. injection E0 as <-. injection E1 as <-.
        destruct Hk as [<-|[<-|[<-|[]]]]; eauto 10.
      - intros [[[v [E H]] ->]|[[[v [E H]] ->]|[[v [E H]] ->]]]; do 2 eexists; simpl; eauto 12. }
    rewrite Ek. clear Ek.
    assert (In p (match (match items_get ai (VStr "outcomes") with Some x => x | None => VDict [] end) with
                  | VDict items => flat_map (fun kv => if is_name (snd kv) then [] else [ROutcomeName]) items
                  | _ => [ROutcomesNotDict] end) <->
            (p = ROutcomesNotDict /\ exists v, items_get ai (VStr "outcomes") = Some v /\ ~ dictionary v) \/
            (p = ROutcomeName /\ exists items f o, items_get ai (VStr "outcomes") = Some (VDict items) /\ In (f, o) items /\ ~ column_name o)) as Eo.
    { destruct (items_get ai (VStr "outcomes")) as [v|].
      2: { simpl. split; [tauto|]. intros [[_ [v [? _]]]|[_ [i [f [o [? _]]]]]]; discriminate. }
      assert ((p = ROutcomesNotDict /\ exists v0, Some v = Some v0 /\ ~ dictionary v0) <-> p = ROutcomesNotDict /\ ~ dictionary v) as ->.
      { split; intros [-> H]; split; try reflexivity; [destruct H as [w [[= <-] H]]; exact H|eauto]. }
      unfold dictionary.
      destruct v as [| | | | | | |oi|];
        try (simpl; split;
             [intros [<-|[]]; left; split; [reflexivity|intros [? ?]; discriminate]
             |intros [[-> _]|[_ [i [f [o [? _]]]]]]; [now left|discriminate]]).
      rewrite in_flat_map. split.
      - intros [[f o] [Hin Hp]]. rewrite if_nil, is_name_iff in Hp. right. split; [tauto|]. exists oi, f, o. tauto.
      - intros [[_ H]|[-> [i [f [o [[= <-] [Hin Hn]]]]]]]; [destruct H; eauto|].
        exists (f, o). split; [exact Hin|]. rewrite if_nil, is_name_iff. auto. }
    rewrite Eo.
    assert ((exists items f o, (exists a0, Some (VDict ai) = Some a0 /\ (exists items0, a0 = VDict items0 /\ items_get items0 (VStr "outcomes") = Some (VDict items))) /\ In (f, o) items /\ ~ column_name o)
      <-> exists items f o, items_get ai (VStr "outcomes") = Some (VDict items) /\ In (f, o) items /\ ~ column_name o) as ->.
    { split.
      - intros [i [f [o [[a0 [E0 [it [E1 E]]]] HP]]]]. injection E0 as <-. injection E1 as <-. eauto.
      - intros [i [f [o [E H]]]]. eauto 12. }
    tauto.
  Qed.

  Section Items.
  Variable items : list (pyval * pyval).
  Hypothesis Ef : rw_factors r = Some (VDict items).

  Lemma measurements_In rm p :
    raw_check_measurements items = Ok rm ->
    (In p rm <->
     (exists f spec m, p = RMeasurementsNotLists f /\ factor_of r f spec /\ entry spec "measurements" m /\ ~ list_of_lists m) \/
     (exists f spec ls t ms x, p = RMeasurementName f t x /\ factor_of r f spec /\ entry spec "measurements" (VList ls) /\
        list_of_lists (VList ls) /\ nth_error ls t = Some (VList ms) /\ In x ms /\ ~ column_name x)).
  Proof.
    intros H. unfold raw_check_measurements in H. rewrite (mapM_concat _ _ _ p H). split.
    - intros [[f spec] [part [Hin [Hpart Hp]]]]. cbn [fst snd] in Hpart.
      apply rbind_ok in Hpart. destruct Hpart as [c [Hc Hpart]]. apply py_item_ok in Hc.
      injection Hpart as <-. destruct (is_list_of is_list c) eqn:E; simpl in Hp.
      + right. apply list_of_lists_iff in E. destruct E as [ls [-> Hls]]. simpl in Hp.
        apply in_flat_map in Hp. destruct Hp as [[t v] [Ht Hp]]. apply In_enumerate in Ht.
        cbn [fst snd] in Hp. destruct (Hls v (nth_error_In _ _ Ht)) as [ms ->]. simpl in Hp.
        apply in_flat_map in Hp. destruct Hp as [x [Hx Hp]]. rewrite if_nil, is_name_iff in Hp. destruct Hp as [Hn ->].
        exists f, spec, ls, t, ms, x. repeat split; auto; [now apply (factor_of_items items)|].
        exists ls. auto.
      + left. destruct Hp as [<-|[]]. exists f, spec, c. repeat split; auto; [now apply (factor_of_items items)|].
        rewrite <- list_of_lists_iff. congruence.
    - intros [[f [spec [m [-> [Hf [He Hm]]]]]]|[f [spec [ls [t [ms [x [-> [Hf [He [Hl [Ht [Hx Hn]]]]]]]]]]]]].
      + apply (factor_of_items items) in Hf; [|exact Ef]. exists (f, spec). cbn [fst snd].
        apply py_item_ok in He. rewrite He. simpl. eexists. split; [exact Hf|]. split; [reflexivity|].
        rewrite <- list_of_lists_iff in Hm. destruct (is_list_of is_list m); [congruence|]. now left.
      + apply (factor_of_items items) in Hf; [|exact Ef]. exists (f, spec). cbn [fst snd].
        apply py_item_ok in He. rewrite He. cbn [rbind]. eexists. split; [exact Hf|]. split; [reflexivity|].
        apply list_of_lists_iff in Hl. rewrite Hl. simpl. apply in_flat_map. exists (t, VList ms).
        split; [now apply In_enumerate|]. simpl. apply in_flat_map. exists x. split; [exact Hx|].
        rewrite if_nil, is_name_iff. auto.
  Qed.

  Lemma present_In normdicts spec f out p :
    (forall x, In x normdicts -> dictionary x) ->
    raw_check_present normdicts spec f = Ok out ->
    (In p out <-> exists m t its x value, p = RNotMeasured f t x /\ nth_error normdicts t = Some (VDict its) /\
       In (x, value) its /\ entry spec "measurements" m /\ ~ measured m t x).
  Proof.
    intros Hd H. unfold raw_check_present in H. rewrite (mapM_concat _ _ _ p H). split.
    - intros [[t nd] [part [Ht [Hpart Hp]]]]. cbn [fst snd] in Hpart. apply In_enumerate in Ht.
      destruct (Hd nd (nth_error_In _ _ Ht)) as [its ->]. cbn [dict_items] in Hpart.
      rewrite (mapM_concat _ _ _ p Hpart) in Hp. destruct Hp as [x [part' [Hx [Hq Hp]]]].
      apply rbind_ok in Hq. destruct Hq as [m [Hm Hq]]. apply rbind_ok in Hq. destruct Hq as [ms [Hms Hq]].
      apply rbind_ok in Hq. destruct Hq as [b [Hb Hq]]. injection Hq as <-.
      rewrite if_nil in Hp. destruct Hp as [Hbt ->]. apply in_map_iff in Hx. destruct Hx as [[x' value] [<- Hx]].
      exists m, t, its, x', value. repeat split; auto; [now apply py_item_ok|].
      intros [ms' [H1 H2]]. apply py_nth_ok in H1. apply py_in_ok in H2. rewrite Hms in H1. injection H1 as <-. cbn [fst] in *. congruence.
    - intros [m [t [its [x [value [-> [Ht [Hx [Hm Hn]]]]]]]]].
      assert (In (t, VDict its) (enumerate normdicts)) as Ht' by now apply In_enumerate.
      destruct (mapM_concat_each _ _ _ _ H Ht') as [part Hpart]. cbn [fst snd dict_items] in Hpart.
      exists (t, VDict its), part. split; [exact Ht'|]. split; [exact Hpart|].
      assert (In x (map fst its)) as Hx' by (apply in_map_iff; exists (x, value); auto).
      rewrite (mapM_concat _ _ _ _ Hpart).
      destruct (mapM_concat_each _ _ _ _ Hpart Hx') as [q Hq].
      exists x, q. split; [exact Hx'|]. split; [exact Hq|]. cbn beta in Hq.
      apply py_item_ok in Hm. rewrite Hm in Hq. cbn [rbind] in Hq.
      apply rbind_ok in Hq. destruct Hq as [ms [Hms Hq]]. apply rbind_ok in Hq. destruct Hq as [b [Hb Hq]].
      injection Hq as <-. rewrite if_nil. split; [|reflexivity]. intros ->. apply Hn. exists ms.
      rewrite <- py_nth_ok, <- py_in_ok. auto.
  Qed.

  Lemma zero_In normdicts f p :
    (forall x, In x normdicts -> dictionary x) ->
    (In p (raw_check_zero normdicts f) <-> exists t its x value, p = RLoadingIsZero f t x /\
       nth_error normdicts t = Some (VDict its) /\ In (x, value) its /\ equals_zero value).
  Proof.
    intros Hd. unfold raw_check_zero. rewrite in_flat_map. split.
    - intros [[t nd] [Ht Hp]]. cbn [fst snd] in Hp. apply In_enumerate in Ht.
      destruct (Hd nd (nth_error_In _ _ Ht)) as [its ->]. apply in_flat_map in Hp.
      destruct Hp as [[x value] [Hx Hp]]. rewrite if_one, is_zero_iff in Hp. destruct Hp as [Hz ->].
      exists t, its, x, value. auto.
    - intros [t [its [x [value [-> [Ht [Hx Hz]]]]]]]. exists (t, VDict its). split; [now apply In_enumerate|].
      apply in_flat_map. exists (x, value). split; [exact Hx|]. rewrite if_one, is_zero_iff. auto.
  Qed.

  Lemma normalizations_In rn p :
    raw_check_normalizations items = Ok rn ->
    (In p rn <->
     (exists f spec ty v, p = RNormalizationsNotDicts ty f /\ factor_of r f spec /\ In ty ["loadings"; "intercepts"] /\
        normalization spec ty v /\ ~ list_of_dicts v) \/
     (exists f spec ty ls m t its x value, p = RNotMeasured f t x /\ factor_of r f spec /\ In ty ["loadings"; "intercepts"] /\
        normalization spec ty (VList ls) /\ list_of_dicts (VList ls) /\ nth_error ls t = Some (VDict its) /\ In (x, value) its /\
        entry spec "measurements" m /\ ~ measured m t x) \/
     (exists f spec ls t its x value, p = RLoadingIsZero f t x /\ factor_of r f spec /\
        normalization spec "loadings" (VList ls) /\ list_of_dicts (VList ls) /\ nth_error ls t = Some (VDict its) /\
        In (x, value) its /\ equals_zero value)).
  Proof.
    intros H. unfold raw_check_normalizations in H. rewrite (mapM_concat _ _ _ p H).
    assert (forall (fd : pyval * pyval) (ty : string) (part : unit) info c,
      py_get (snd fd) "normalizations" (VDict []) = Ok info -> py_get info ty (VList []) = Ok c ->
      normalization (snd fd) ty c) as Hnorm.
    { intros fd ty part info c H1 H2. exists info. rewrite <- !py_get_ok. auto. }
    split.
    - intros [[f spec] [part [Hin [Hpart Hp]]]]. cbn [fst snd] in Hpart.
      assert (factor_of r f spec) as Hf by now apply (factor_of_items items).
      apply rbind_ok in Hpart. destruct Hpart as [info [Hinfo Hpart]].
      rewrite (mapM_concat _ _ _ p Hpart) in Hp. destruct Hp as [ty [part' [Hty [Hq Hp]]]].
      apply rbind_ok in Hq. destruct Hq as [c [Hc Hq]].
      pose proof (Hnorm (f, spec) ty tt info c Hinfo Hc) as Hnc. cbn [snd] in Hnc.
      destruct (is_list_of is_dict c) eqn:E; cbn [negb] in Hq.
      + pose proof E as Hdicts. apply list_of_dicts_iff in Hdicts. pose proof Hdicts as [ls [-> Hls]]. cbn [entries] in Hq.
        apply rbind_ok in Hq. destruct Hq as [miss [Hm Hq]]. injection Hq as <-. apply in_app_iff in Hp.
        destruct Hp as [Hp|Hp].
        * apply (present_In ls spec f miss p Hls Hm) in Hp. destruct Hp as [m [t [its [x [value [-> [H1 [H2 [H3 H4]]]]]]]]].
          right. left. exists f, spec, ty, ls, m, t, its, x, value. auto 12.
        * destruct (String.eqb_spec ty "loadings") as [->|]; [|destruct Hp].
          apply (zero_In ls f p Hls) in Hp. destruct Hp as [t [its [x [value [-> [H1 [H2 H3]]]]]]].
          right. right. exists f, spec, ls, t, its, x, value. auto 12.
      + injection Hq as <-. destruct Hp as [<-|[]]. left. exists f, spec, ty, c.
        split; [reflexivity|]. split; [exact Hf|]. split; [exact Hty|]. split; [exact Hnc|].
        rewrite <- list_of_dicts_iff. congruence.
    - assert (forall f spec ty v, factor_of r f spec -> In ty ["loadings"; "intercepts"] -> normalization spec ty v ->
        (exists q, (if negb (is_list_of is_dict v) then Ok [RNormalizationsNotDicts ty f]
            else do missing <- raw_check_present (entries v) spec f;
                 Ok (missing ++ (if String.eqb ty "loadings" then raw_check_zero (entries v) f else []))) = Ok q /\
         (In p q -> exists x part, In x items /\ (do norminfo <- py_get (snd x) "normalizations" (VDict []);
           rmap (@concat raw_problem)
             (mapM (fun norm_type =>
                do candidate <- py_get norminfo norm_type (VList []);
                if negb (is_list_of is_dict candidate) then Ok [RNormalizationsNotDicts norm_type (fst x)]
                else
                  do missing <- raw_check_present (entries candidate) (snd x) (fst x);
                  Ok (missing ++ (if String.eqb norm_type "loadings" then raw_check_zero (entries candidate) (fst x) else [])))
              ["loadings"; "intercepts"])) = Ok part /\ In p part))) as K.
      { intros f spec ty v Hf Hty [info [Hi Hv]]. apply (factor_of_items items) in Hf; [|exact Ef].
        destruct (mapM_concat_each _ _ _ _ H Hf) as [part Hpart]. pose proof Hpart as Hpart'. cbn [fst snd] in Hpart'.
        apply py_get_ok in Hi. apply py_get_ok in Hv. rewrite Hi in Hpart'. cbn [rbind] in Hpart'.
        destruct (mapM_concat_each _ _ _ _ Hpart' Hty) as [q Hq]. pose proof Hq as Hq'. cbn beta in Hq'. rewrite Hv in Hq'. cbn [rbind] in Hq'.
        exists q. split; [exact Hq'|]. intros Hin. exists (f, spec), part. split; [exact Hf|]. split; [exact Hpart|].
        rewrite (mapM_concat _ _ _ p Hpart'). exists ty, q. auto. }
      intros [[f [spec [ty [v [-> [Hf [Hty [Hn Hv]]]]]]]]|
             [[f [spec [ty [ls [m [t [its [x [value [-> [Hf [Hty [Hn [Hl [Ht [Hx [Hm Hnm]]]]]]]]]]]]]]]]]|
              [f [spec [ls [t [its [x [value [-> [Hf [Hn [Hl [Ht [Hx Hz]]]]]]]]]]]]]]].
      + destruct (K f spec ty v Hf Hty Hn) as [q [Hq Hk]]. apply Hk.
        rewrite <- list_of_dicts_iff in Hv. destruct (is_list_of is_dict v); [congruence|]. injection Hq as <-. now left.
      + destruct (K f spec ty (VList ls) Hf Hty Hn) as [q [Hq Hk]]. apply Hk. clear Hk K.
        rewrite (proj2 (list_of_dicts_iff _) Hl) in Hq. cbn [negb entries] in Hq.
        destruct Hl as [ls' [[= <-] Hls]].
        apply rbind_ok in Hq. destruct Hq as [miss [Hmi Hq]]. injection Hq as <-. apply in_app_iff. left.
        apply (present_In ls spec f miss _ Hls Hmi). exists m, t, its, x, value. auto 12.
      + destruct (K f spec "loadings" (VList ls) Hf (or_introl eq_refl) Hn) as [q [Hq Hk]]. apply Hk. clear Hk K.
        rewrite (proj2 (list_of_dicts_iff _) Hl) in Hq. cbn [negb entries] in Hq.
        destruct Hl as [ls' [[= <-] Hls]].
        apply rbind_ok in Hq. destruct Hq as [miss [Hmi Hq]]. injection Hq as <-. apply in_app_iff. right. simpl.
        apply (zero_In ls f _ Hls). exists t, its, x, value. auto 12.
  Qed.
  End Items.

  Lemma report_right p : In p report <-> has_problem r (rd_periods d) p.
  Proof.
    destruct process_parts as [_ [_ [_ Hr]]]. destruct items_exist as [items [Ef Ei]].
    destruct labels_right as [Hsm Hst].
    unfold raw_report in Hr. rewrite Ei in Hr. cbn [rbind] in Hr.
    apply rbind_ok in Hr. destruct Hr as [rm [Hm Hr]]. apply rbind_ok in Hr. destruct Hr as [rn [Hn Hr]].
    injection Hr as Hr. rewrite <- Hr, !in_app_iff, in_map_iff, anchoring_In, (measurements_In items Ef rm p Hm), (normalizations_In items Ef rn p Hn).
    rewrite Hst, Hsm. split.
    - intros [[q [<- Hq]]|[[[-> [v [H1 H2]]]|[[-> [i [f [o [H1 [H2 H3]]]]]]|[key [v [-> [H1 [H2 H3]]]]]]]|[[H|H]|[H|[H|H]]]]].
      + apply check_stagemap_In in Hq.
        destruct Hq as [[-> Hq]|[[-> Hq]|[-> [i [a' [b [H1 [H2 [H3 H4]]]]]]]]]; [now constructor|now constructor|now apply (stagemap_step _ _ i a' b)].
      + now apply (outcomes_no_dictionary _ _ v).
      + now apply (outcome_no_name _ _ i f o).
      + now apply (flag_no_boolean _ _ key v).
      + destruct H as [f [spec [m [-> H]]]]. now apply (measurements_no_lists _ _ f spec m).
      + destruct H as [f [spec [ls [t [ms [x [-> H]]]]]]]. now apply (measurement_no_name _ _ f spec ls t ms x).
      + destruct H as [f [spec [ty [v [-> H]]]]]. now apply (normalizations_no_dicts _ _ f spec ty v).
      + destruct H as [f [spec [ty [ls [m [t [its [x [value [-> H]]]]]]]]]]. now apply (normalized_not_measured _ _ f spec ty ls m t its x value).
      + destruct H as [f [spec [ls [t [its [x [value [-> H]]]]]]]]. now apply (loading_zero _ _ f spec ls t its x value).
    - intros H. destruct H as [Hq|Hq|i a' b H1 H2 H3 H4|v H1 H2|i f o H1 H2 H3|key v H1 H2 H3|f spec m H1 H2 H3|f spec ls t ms x H1 H2 H3 H4 H5 H6|f spec ty v H1 H2 H3 H4|f spec ty ls m t its x value H1 H2 H3 H4 H5 H6 H7 H8|f spec ls t its x value H1 H2 H3 H4 H5 H6].
      + left. exists StagemapLength. split; [reflexivity|]. apply check_stagemap_In. auto.
      + left. exists StagesNotConsecutive. split; [reflexivity|]. apply check_stagemap_In. auto.
      + left. exists StagemapStep. split; [reflexivity|]. apply check_stagemap_In. right. right. split; [reflexivity|]. exists i, a', b. auto.
      + right. left. left. eauto.
      + right. left. right. left. split; [reflexivity|]. exists i, f, o. auto.
      + right. left. right. right. exists key, v. auto.
      + right. right. left. left. exists f, spec, m. auto.
      + right. right. left. right. exists f, spec, ls, t, ms, x. auto 12.
      + right. right. right. left. exists f, spec, ty, v. auto 12.
      + right. right. right. right. left. exists f, spec, ty, ls, m, t, its, x, value. auto 12.
      + right. right. right. right. right. exists f, spec, ls, t, its, x, value. auto 12.
  Qed.
End Report.

(** C102. If a specification can be read at all, the report consists of exactly the
    problems of the specification, and it is accepted if there are none. *)
Theorem C102_report_partial r d l a report :
  raw_process r = Ok (d, l, a, report) ->
  periods_of r (rd_periods d) /\
  (forall p, In p report <-> has_problem r (rd_periods d) p) /\
  ((exists out, raw_checked r = Ok out) <-> forall p, ~ has_problem r (rd_periods d) p) /\
  ((exists p, has_problem r (rd_periods d) p) -> raw_checked r = Err ValueError).
Proof.
  intros H. pose proof (report_right r d l a report H) as K. split; [exact (periods_right r d l a report H)|].
  split; [exact K|].
  unfold raw_checked. rewrite H. cbn [rbind snd fst]. split.
  - destruct report as [|p0 rep].
    + split; [|eauto]. intros _ p Hp. apply K in Hp. destruct Hp.
    + split; [intros [? ?]; discriminate|]. intros Hn. destruct (Hn p0). apply K. now left.
  - intros [p Hp]. apply K in Hp. destruct report; [destruct Hp|reflexivity].
Qed.
Print Assumptions C102_report_partial.

(** *** specifications that can be read *)

Lemma present_total ls spec f lists :
  (forall x, In x ls -> dictionary x) ->
  entry spec "measurements" (VList lists) -> (forall x, In x lists -> exists m, x = VList m) ->
  (forall t its, nth_error ls t = Some (VDict its) -> its <> [] -> t < length lists) ->
  exists out, raw_check_present ls spec f = Ok out.
Proof.
  intros Hd He Hl Ht. apply concat_total. intros [t nd] Hin. apply In_enumerate in Hin. cbn [fst snd].
  destruct (Hd nd (nth_error_In _ _ Hin)) as [its ->]. apply concat_total. intros x Hx.
  apply py_item_ok in He. rewrite He. cbn [rbind py_nth dict_items] in *. unfold nth_err.
  assert (t < length lists) as Hlt.
  { apply (Ht t its Hin). intros ->. destruct Hx. }
  destruct (nth_error lists t) as [ms|] eqn:E; [|apply nth_error_None in E; lia].
  destruct (Hl ms (nth_error_In _ _ E)) as [m ->]. simpl. eauto.
Qed.

Lemma fun_entry_or items key default : exists v, py_get (VDict items) key default = Ok v.
Proof. simpl. eauto. Qed.

Theorem C102_readable r : right_containers r -> exists out, raw_process r = Ok out.
Proof.
  intros [[items [Ef Hne]] [Hspec [Ho [Hc [[oi Eo] [Ha Hout]]]]]].
  assert (raw_items r = Ok items) as Ei by (unfold raw_items; now rewrite Ef).
  assert (forall f spec, In (f, spec) items -> factor_of r f spec) as Hfac by (intros f spec H; exists items; auto).
  assert (exists d, raw_dimensions r = Ok d) as [d Hd].
  { unfold raw_dimensions. rewrite Ei. cbn [rbind].
    destruct (mapM_total (fun fd : pyval * pyval => do m <- py_item (snd fd) "measurements"; py_len m) items) as [ns Hns].
    { intros [f spec] Hin. destruct (Hspec f spec (Hfac f spec Hin)) as [_ [lists [He _]]].
      apply py_item_ok in He. cbn [snd]. rewrite He. unfold py_len; simpl. eauto. }
    rewrite Hns. cbn [rbind].
    assert (forall o : option pyval, (forall v, o = Some v -> iterable v) -> exists n, py_len (raw_get o (VList [])) = Ok n) as Hlen.
    { intros [v|] H; simpl; [|unfold py_len; simpl; eauto].
      destruct (H v eq_refl) as [x E]. apply py_len_ok in E. eauto. }
    destruct (Hlen _ Ho) as [n1 ->]. cbn [rbind].
    assert (exists np, py_max ns = Ok np) as [np ->].
    { destruct ns; [|simpl; eauto]. apply mapM_length in Hns. destruct items; [congruence|discriminate]. }
    cbn [rbind]. destruct (Hlen _ Hc) as [n2 ->]. cbn [rbind]. rewrite Eo. cbn [raw_entry rbind].
    simpl. eauto. }
  assert (exists l, raw_labels_of r d = Ok l) as [l Hl].
  { unfold raw_labels_of. rewrite Ei. cbn [rbind].
    assert (forall o : option pyval, (forall v, o = Some v -> iterable v) -> exists n, py_list (raw_get o (VList [])) = Ok n) as Hlist.
    { intros [v|] H; simpl; [exact (proj1 (iterable_iff v) (H v eq_refl))|eauto]. }
    destruct (Hlist _ Ho) as [n1 ->]. destruct (Hlist _ Hc) as [n2 ->]. simpl. eauto. }
  assert (exists a, raw_anchoring r = Ok a) as [a Hanch].
  { unfold raw_anchoring. destruct (rw_anchoring r) as [v|] eqn:Ev; [|eauto].
    destruct (Ha v eq_refl) as [ai ->].
    destruct (items_get ai (VStr "outcomes")) as [o|] eqn:E; [|simpl; eauto].
    destruct (proj1 (iterable_iff o)) as [x Ex]; [apply Hout; exists (VDict ai); split; [exact Ev|]; exists ai; now rewrite <- items_get_Some|].
    rewrite Ex. simpl. eauto. }
  assert (exists rm, raw_check_measurements items = Ok rm) as [rm Hrm].
  { apply concat_total. intros [f spec] Hin. destruct (Hspec f spec (Hfac f spec Hin)) as [_ [lists [He _]]].
    apply py_item_ok in He. cbn [snd]. rewrite He. cbn [rbind]. eauto. }
  assert (exists rn, raw_check_normalizations items = Ok rn) as [rn Hrn].
  { apply concat_total. intros [f spec] Hin. cbn [fst snd].
    destruct (Hspec f spec (Hfac f spec Hin)) as [[si ->] [lists [He [Hlists [Hninfo Hlong]]]]].
    destruct (fun_entry_or si "normalizations" (VDict [])) as [info Hinfo]. rewrite Hinfo. cbn [rbind].
    assert (dictionary info) as [ni ->].
    { simpl in Hinfo. injection Hinfo as <-.
      destruct (items_get si (VStr "normalizations")) as [v|] eqn:E; [|exists []; reflexivity].
      apply Hninfo. exists si. now rewrite <- items_get_Some. }
    apply concat_total. intros ty Hty. destruct (fun_entry_or ni ty (VList [])) as [c Hcand]. rewrite Hcand. cbn [rbind].
    destruct (is_list_of is_dict c) eqn:E; cbn [negb]; [|eauto].
    apply list_of_dicts_iff in E. destruct E as [ls [-> Hls]]. cbn [entries].
    destruct (present_total ls (VDict si) f lists Hls He Hlists) as [miss Hm].
    { intros t its Ht Hnn. apply (Hlong ty ls t its Hty); auto. exists (VDict ni). rewrite <- !py_get_ok. auto. }
    rewrite Hm. cbn [rbind]. eauto. }
  unfold raw_process. rewrite Hd. cbn [rbind]. rewrite Hl. cbn [rbind]. rewrite Hanch. cbn [rbind].
  unfold raw_report. rewrite Ei. cbn [rbind]. rewrite Hrm. cbn [rbind]. rewrite Hrn. cbn [rbind]. eauto.
Qed.
Print Assumptions C102_readable.

(** *** typed specifications *)

Definition raw_of_problem (p : problem) : raw_problem :=
  match p with
  | NormNotMeasured f t v => RNotMeasured (VStr f) t (VStr v)
  | LoadingIsZero f t v => RLoadingIsZero (VStr f) t (VStr v)
  | p => RStages p
  end.

Lemma rmap_concat_map {A B C D} (g : C -> D) (f : A -> result (list C)) (f' : B -> result (list D)) (e : A -> B) l :
  (forall x, In x l -> f' (e x) = rmap (map g) (f x)) ->
  rmap (@concat D) (mapM f' (map e l)) = rmap (map g) (rmap (@concat C) (mapM f l)).
Proof.
  intros H. enough (mapM f' (map e l) = rmap (map (map g)) (mapM f l)) as ->.
  { destruct (mapM f l); simpl; [|reflexivity]. now rewrite concat_map. }
  induction l as [|x l IH]; simpl; [reflexivity|]. rewrite H by now left.
  destruct (f x); simpl; [|reflexivity]. rewrite IH by (intros y Hy; apply H; now right).
  destruct (mapM f l); reflexivity.
Qed.

Lemma existsb_strings x l : existsb (key_eq (VStr x)) (map VStr l) = smem x l.
Proof. unfold smem. induction l as [|y l IH]; [reflexivity|]. cbn [existsb map]. now rewrite IH. Qed.

Lemma present_typed nds fs f :
  raw_check_present (map norm_dict nds) (raw_factor fs) (VStr f)
  = rmap (map raw_of_problem) (check_normalized_present nds (fs_measurements fs) f).
Proof.
  unfold raw_check_present, check_normalized_present. rewrite enumerate_map.
  apply rmap_concat_map. intros [t nd] _. cbn [fst snd]. unfold norm_dict, dict_items. rewrite map_map. cbn [fst].
  rewrite <- (map_map fst VStr), map_map.
  apply rmap_concat_map. intros [x q] _. cbn [fst snd raw_factor].
  change (py_item (raw_factor fs) "measurements") with (Ok (VList (map strings (fs_measurements fs)))). cbn [rbind py_nth].
  unfold nth_err. rewrite nth_error_map. destruct (nth_error (fs_measurements fs) t) as [ms|]; [|reflexivity].
  cbn [option_map rbind py_in strings]. rewrite existsb_strings. destruct (smem x ms); reflexivity.
Qed.

Lemma zero_typed nds f : raw_check_zero (map norm_dict nds) (VStr f) = map raw_of_problem (check_loadings_not_zero nds f).
Proof.
  unfold raw_check_zero, check_loadings_not_zero. rewrite enumerate_map.
  induction (enumerate nds) as [|[t nd] l IH]; simpl; [reflexivity|]. rewrite IH, map_app. f_equal. clear.
  induction nd as [|[x q] nd IH]; simpl; [reflexivity|]. rewrite IH, map_app. f_equal. unfold is_zero. simpl.
  destruct (Qeq_bool q 0); reflexivity.
Qed.

Lemma dicts_typed nds : is_list_of is_dict (VList (map norm_dict nds)) = true.
Proof. simpl. rewrite forallb_forall. intros x Hx. apply in_map_iff in Hx. destruct Hx as [nd [<- _]]. reflexivity. Qed.

Lemma lists_typed ms : is_list_of is_list (VList (map strings ms)) = true.
Proof. simpl. rewrite forallb_forall. intros x Hx. apply in_map_iff in Hx. destruct Hx as [nd [<- _]]. reflexivity. Qed.

Lemma normalizations_typed md :
  NoDup (dkeys (md_factors md)) ->
  raw_check_normalizations (map (fun fd => (VStr (fst fd), raw_factor (snd fd))) (md_factors md))
  = rmap (map raw_of_problem) (check_normalizations md (dkeys (md_factors md))).
Proof.
  intros Hnd. unfold raw_check_normalizations, check_normalizations, dkeys. rewrite (mapM_map _ (@fst string factor_spec)).
  apply rmap_concat_map. intros [f fs] Hin. cbn [fst snd].
  unfold dget_err. rewrite (In_dget _ _ _ Hnd Hin). cbn [rbind].
  set (lo := get_default (ns_loadings (get_default (fs_norm fs) (mk_norm None None))) []).
  set (ic := get_default (ns_intercepts (get_default (fs_norm fs) (mk_norm None None))) []).
  assert (exists info, py_get (raw_factor fs) "normalizations" (VDict []) = Ok info /\
     py_get info "loadings" (VList []) = Ok (VList (map norm_dict lo)) /\
     py_get info "intercepts" (VList []) = Ok (VList (map norm_dict ic))) as [info [E [E1 E2]]].
  { subst lo ic. destruct fs as [ms t [[[l|] [i|]]|]]; simpl; eexists; repeat split; reflexivity. }
  rewrite E. cbn [rbind mapM]. rewrite E1. cbn [rbind]. rewrite dicts_typed. cbn [negb entries].
  rewrite present_typed. change (String.eqb "loadings" "loadings") with true. change (String.eqb "intercepts" "loadings") with false.
  cbv iota. rewrite zero_typed.
  destruct (check_normalized_present lo (fs_measurements fs) f) as [r1|e]; cbn [rmap rbind]; [|reflexivity].
  rewrite E2. cbn [rbind]. rewrite dicts_typed. cbn [negb entries]. rewrite present_typed.
  destruct (check_normalized_present ic (fs_measurements fs) f) as [r2|e]; cbn [rmap rbind]; [|reflexivity].
  simpl. now rewrite !app_nil_r, !map_app, app_assoc.
Qed.

Lemma measurements_typed (fsd : dict factor_spec) :
  raw_check_measurements (map (fun fd => (VStr (fst fd), raw_factor (snd fd))) fsd) = Ok [].
Proof.
  unfold raw_check_measurements. rewrite mapM_map.
  rewrite (mapM_ext _ (fun _ => Ok [])).
  - rewrite mapM_Ok_map. simpl. induction fsd; simpl; auto.
  - intros [f fs] _. cbn [fst snd].
    change (py_item (raw_factor fs) "measurements") with (Ok (VList (map strings (fs_measurements fs)))). cbn [rbind].
    rewrite lists_typed. cbn [negb entries]. rewrite enumerate_map. f_equal.
    induction (enumerate (fs_measurements fs)) as [|[t ms] l IH]; simpl; [reflexivity|]. rewrite IH, app_nil_r.
    induction ms as [|x ms IHm]; simpl; auto.
Qed.

Lemma anchoring_typed md :
  exists a, raw_anchoring (raw_of md) = Ok a /\ a = raw_of_anchinfo (process_anchoring md) /\ raw_check_anchoring a = [].
Proof.
  exists (raw_of_anchinfo (process_anchoring md)). split; [|split; [reflexivity|]].
  - destruct md as [fsd ob co sm [[o fc fk fl ig]|] op]; [|reflexivity].
    destruct o as [o|], fc as [fc|], fk as [fk|], fl as [fl|], ig as [ig|];
      unfold raw_anchoring, raw_of_anchinfo, process_anchoring; simpl; unfold dkeys; now rewrite ?map_map.
  - unfold raw_check_anchoring, raw_of_anchinfo. simpl.
    induction (a_outcomes (process_anchoring md)) as [|[f o] l IH]; simpl; auto.
Qed.

(** On specifications with the documented types, the typed model of [CheckModel.v] and
    this one agree: the same specifications are accepted, with the same dimensions, labels
    and anchoring information, and the same exceptions are raised otherwise. *)
Theorem C102_typed md :
  NoDup (dkeys (md_factors md)) ->
  raw_checked (raw_of md) =
  (do d <- get_dimensions md;
   do _ <- check_model md (get_labels md d) d;
   Ok (raw_of_dims d, raw_of_labels (get_labels md d), raw_of_anchinfo (process_anchoring md))).
Proof.
  intros Hnd. unfold raw_checked, raw_process.
  assert (forall o : option (list string), py_list (raw_get (option_map strings o) (VList [])) = Ok (map VStr (get_default o []))) as Hl.
  { intros [o|]; reflexivity. }
  assert (forall o : option (list string), py_len (raw_get (option_map strings o) (VList [])) = Ok (length (get_default o []))) as Hlen.
  { intros o. unfold py_len. rewrite Hl. simpl. now rewrite map_length. }
  assert (raw_dimensions (raw_of md) = rmap raw_of_dims (get_dimensions md)) as ->.
  { unfold raw_dimensions, get_dimensions. unfold raw_items. cbn [rw_factors rw_observed rw_controls rw_options raw_of raw_entry rbind].
    rewrite mapM_map.
    rewrite (mapM_ext _ (fun fd => Ok (length (fs_measurements (snd fd))))).
    2: { intros [f fs] _. cbn [snd].
         change (py_item (raw_factor fs) "measurements") with (Ok (VList (map strings (fs_measurements fs)))). unfold py_len. simpl.
         now rewrite map_length. }
    rewrite mapM_Ok_map. cbn [rbind]. rewrite !Hlen. cbn [rbind]. unfold dvalues. rewrite map_map.
    destruct (py_max _); [|reflexivity]. cbn [rbind].
    destruct (md_options md) as [o|]; [|reflexivity]. cbn [option_map raw_entry rbind].
    rewrite map_length. destruct o as [[m|] [s|] ? ? ? ? ? ?]; reflexivity. }
  destruct (get_dimensions md) as [d|e]; cbn [rmap rbind]; [|reflexivity].
  assert (raw_labels_of (raw_of md) (raw_of_dims d) = Ok (raw_of_labels (get_labels md d))) as ->.
  { unfold raw_labels_of, get_labels, raw_of_labels, raw_items. cbn [rw_factors rw_observed rw_controls rw_stagemap raw_of raw_entry rbind].
    rewrite !Hl. cbn [rbind]. unfold dkeys. simpl. rewrite !map_map. destruct (md_stagemap md); reflexivity. }
  cbn [rbind]. destruct (anchoring_typed md) as [a [Ha [-> Hc]]]. rewrite Ha. cbn [rbind].
  unfold raw_report. unfold raw_items. cbn [rw_factors raw_of raw_entry rbind].
  rewrite measurements_typed. cbn [rbind]. rewrite normalizations_typed by exact Hnd. rewrite Hc.
  unfold check_model. change (l_latent (get_labels md d)) with (dkeys (md_factors md)).
  destruct (check_normalizations md (dkeys (md_factors md))) as [rn|e]; cbn [rmap rbind]; [|reflexivity].
  cbn [snd fst raw_of_labels rl_stagemap rl_stages raw_of_dims rd_periods]. rewrite !app_nil_l.
  destruct (check_stagemap (l_stagemap (get_labels md d)) (l_stages (get_labels md d)) (n_periods d)); [|reflexivity].
  simpl. destruct rn; reflexivity.
Qed.
Print Assumptions C102_typed.

(** *** examples *)

Definition raw_spec (entries : list (string * pyval)) : pyval := VDict (map (fun kv => (VStr (fst kv), snd kv)) entries).

(** Everything is wrong: measurements of the first factor in a tuple, an invalid name and
    a loading of [0.0] for the second one, normalizations of a variable without
    measurements, anchoring to a float with a number for a flag, stages with a hole. *)
Definition wrong_model : raw_model :=
  mk_raw (Some (raw_spec
    [("fac1", raw_spec [("measurements", VTuple [VList [VStr "y1"]; VList [VStr "y1"]]); ("normalizations", raw_spec [("loadings", VNone)])]);
     ("fac2", raw_spec [("measurements", VList [VList [VStr "y2"; VNone]; VList [VInt 3]; VList [VTuple [VInt 1; VStr "y"]]]);
        ("normalizations", raw_spec [("loadings", VList [raw_spec [("y2", VFloat 0)]; VDict [(VBool true, VInt 1); (VFloat 3, VInt 1)]])])])]))
    None None (Some [0%Z; 2%Z])
    (Some (raw_spec [("outcomes", raw_spec [("fac1", VFloat 1)]); ("free_controls", VInt 1)]))
    (Some (VDict [])).

Example C102_nonvacuous :
  raw_process wrong_model =
    Ok (mk_raw_dims 2 0 3 1 (VInt 1),
        mk_raw_labels [VStr "fac1"; VStr "fac2"] [] [VStr "constant"] [0; 1; 2] [0%Z; 2%Z] [0%Z; 2%Z],
        mk_raw_anchinfo (VBool true) (raw_spec [("fac1", VFloat 1)]) [VStr "fac1"] (VInt 1) (VBool false) (VBool false),
        [RStages StagesNotConsecutive; RStages StagemapStep; ROutcomeName; RNotBool "free_controls";
         RMeasurementsNotLists (VStr "fac1"); RMeasurementName (VStr "fac2") 0 VNone;
         RNormalizationsNotDicts "loadings" (VStr "fac1");
         RNotMeasured (VStr "fac2") 1 (VBool true); RLoadingIsZero (VStr "fac2") 0 (VStr "y2")]) /\
  raw_checked wrong_model = Err ValueError.
Proof. split; reflexivity. Qed.

(** A specification with the right containers and wrong entries. *)
Definition readable_model : raw_model :=
  mk_raw (Some (raw_spec
    [("fac1", raw_spec [("measurements", VList [VList [VStr "y1"; VNone]; VList [VInt 3]]);
        ("normalizations", raw_spec [("loadings", VList [raw_spec [("y1", VFloat 0)]; VDict []; VDict []]); ("intercepts", VNone)])])]))
    None (Some (VTuple [VStr "x1"])) None (Some (VDict [])) (Some (VDict [])).

Example C102_readable_nonvacuous :
  right_containers readable_model /\
  (exists d l a, raw_process readable_model =
     Ok (d, l, a, [RMeasurementName (VStr "fac1") 0 VNone; RLoadingIsZero (VStr "fac1") 0 (VStr "y1"); RNormalizationsNotDicts "intercepts" (VStr "fac1")])).
Proof.
  split; [|do 3 eexists; reflexivity].
  split; [eexists; split; [reflexivity|discriminate]|]. split.
  - intros f spec [items [E Hin]]. injection E as <-. destruct Hin as [E|[]]. injection E as <- <-.
    split; [eexists; reflexivity|]. eexists. split; [apply py_item_ok; reflexivity|]. split; [|split].
    + intros x [<-|[<-|[]]]; eexists; reflexivity.
    + intros ni H. apply py_item_ok in H. injection H as <-. eexists. reflexivity.
    + intros ty ls t its Hty [ni [Hn Hl]] Ht Hne. apply py_get_ok in Hn. apply py_get_ok in Hl.
      injection Hn as <-. destruct Hty as [<-|[<-|[]]]; [|discriminate].
      injection Hl as <-. destruct t as [|[|[|t]]]; simpl in *; try lia; [|destruct t; discriminate]. injection Ht as <-. congruence.
  - split; [discriminate|]. split; [intros v E; injection E as <-; eexists; constructor|].
    split; [eexists; reflexivity|]. split.
    + intros a E. injection E as <-. eexists. reflexivity.
    + intros v [a [E H]]. injection E as <-. apply py_item_ok in H. discriminate.
Qed.

(** A specification of the documented types. *)
Example C102_typed_nonvacuous :
  let md := mk_md [("fac1", mk_factor [["y1"]; ["y1"]] (TStr "linear") (Some (mk_norm (Some [[("y1", 1%Q)]; []]) None)))]
              None (Some ["x1"]) None (Some (mk_anch (Some [("fac1", "q")]) (Some true) None None None))
              (Some (mk_opts None None None None None None None None)) in
  NoDup (dkeys (md_factors md)) /\ exists out, raw_checked (raw_of md) = Ok out.
Proof. split; [repeat constructor; intros []|eexists; reflexivity]. Qed.

(** *** what is not rejected *)

(** The controls as a string: a separate control for every character is used. *)
Theorem C102_controls_refuted :
  exists r d l a, rw_controls r = Some (VStr "age") /\ raw_checked r = Ok (d, l, a) /\
    rl_controls l = [VStr "constant"; VStr "a"; VStr "g"; VStr "e"].
Proof.
  exists (mk_raw (Some (raw_spec [("fac1", raw_spec [("measurements", VList [VList [VStr "y1"]; VList [VStr "y1"]])])]))
    None (Some (VStr "age")) None None (Some (VDict []))).
  do 3 eexists. repeat split.
Qed.
Print Assumptions C102_controls_refuted.

(** A loading normalized to something that is not a number; names of controls and the
    number of mixture elements are not checked either. *)
Theorem C102_values_refuted :
  exists r d l a f spec, raw_checked r = Ok (d, l, a) /\ factor_of r f spec /\
    normalization spec "loadings" (VList [raw_spec [("y1", VStr "one")]]) /\
    rl_controls l = [VStr "constant"; VNone] /\ rd_mixtures d = VStr "two".
Proof.
  exists (mk_raw (Some (raw_spec [("fac1", raw_spec [("measurements", VList [VList [VStr "y1"]; VList [VStr "y1"]]);
       ("normalizations", raw_spec [("loadings", VList [raw_spec [("y1", VStr "one")]])])])]))
    None (Some (VList [VNone])) None None (Some (raw_spec [("n_mixtures", VStr "two")]))).
  do 5 eexists. split; [reflexivity|]. split; [eexists; split; [reflexivity|left; reflexivity]|].
  split; [eexists; rewrite <- !py_get_ok; split; reflexivity|]. split; reflexivity.
Qed.
Print Assumptions C102_values_refuted.

(** *** rejected, but without a report *)
Theorem C102_crash_refuted :
  (exists r f spec, factor_of r f spec /\ entry spec "measurements" VNone /\ raw_checked r = Err TypeError) /\
  (exists r, anchoring_entry r "outcomes" VNone /\ raw_checked r = Err TypeError) /\
  (exists r f spec, factor_of r f spec /\ entry spec "normalizations" VNone /\ raw_checked r = Err AttributeError).
Proof.
  split; [|split].
  - exists (mk_raw (Some (raw_spec [("fac1", raw_spec [("measurements", VNone)])])) None None None None (Some (VDict []))).
    do 2 eexists. split; [eexists; split; [reflexivity|left; reflexivity]|]. split; [apply py_item_ok; reflexivity|reflexivity].
  - exists (mk_raw (Some (raw_spec [("fac1", raw_spec [("measurements", VList [VList []; VList []])])])) None None None
      (Some (raw_spec [("outcomes", VNone)])) (Some (VDict []))).
    split; [eexists; split; [reflexivity|]; apply py_item_ok; reflexivity|reflexivity].
  - exists (mk_raw (Some (raw_spec [("fac1", raw_spec [("measurements", VList [VList []; VList []]); ("normalizations", VNone)])]))
      None None None None (Some (VDict []))).
    do 2 eexists. split; [eexists; split; [reflexivity|left; reflexivity]|]. split; [apply py_item_ok; reflexivity|reflexivity].
Qed.
Print Assumptions C102_crash_refuted.
