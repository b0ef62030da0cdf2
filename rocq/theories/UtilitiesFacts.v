(** Facts about reduced specifications. *)
Require Import String Ascii Arith ZArith QArith Bool List Lia.
From Verif Require Import PyBase ListFacts StringFacts ModelSpec ProcessModel CheckModel SpecModel
  ProcessModelFacts AcceptFacts ParamsIndex SpecIndex IndexFacts ParseParams ParamsVec PropsParse Utilities
  SpecUtilities.
Import ListNotations.
Open Scope string_scope.
Open Scope list_scope.
Open Scope nat_scope.

(** * Sublists *)

Inductive sublist {A} : list A -> list A -> Prop :=
| sub_nil : sublist [] []
| sub_keep x l l' : sublist l' l -> sublist (x :: l') (x :: l)
| sub_drop x l l' : sublist l' l -> sublist l' (x :: l).

Lemma sublist_refl {A} (l : list A) : sublist l l.
Proof. induction l; constructor; assumption. Qed.

Lemma kept_sublist {A} (P : A -> Prop) l l' : kept P l l' -> sublist l' l.
Proof. induction 1; constructor; assumption. Qed.

Lemma sublist_In {A} (l l' : list A) x : sublist l' l -> In x l' -> In x l.
Proof. induction 1; simpl; intuition. Qed.

Lemma sublist_app {A} (a a' b : list A) : sublist a' a -> sublist (a' ++ b) (a ++ b).
Proof. induction 1; simpl; [apply sublist_refl|now constructor|now constructor]. Qed.

Lemma sublist_positions {A} (l l' : list A) : sublist l' l -> forall i j x y,
  nth_error l' i = Some x -> nth_error l' j = Some y -> j <= i ->
  exists i0 j0, nth_error l i0 = Some x /\ nth_error l j0 = Some y /\ j0 <= i0.
Proof.
  induction 1 as [|z l l' Hs IH|z l l' Hs IH]; intros i j x y Hi Hj Hle.
  - destruct i; discriminate.
  - destruct i as [|i], j as [|j]; simpl in Hi, Hj; try lia.
    + exists 0, 0. auto.
    + apply nth_error_In, (sublist_In _ _ _ Hs), In_nth_error in Hi as [i0 Hi].
      exists (S i0), 0. simpl. split; [exact Hi|]. split; [exact Hj|lia].
    + destruct (IH i j x y Hi Hj) as (i0 & j0 & H1 & H2 & H3); [lia|].
      exists (S i0), (S j0). simpl. split; [exact H1|]. split; [exact H2|lia].
  - destruct (IH i j x y Hi Hj Hle) as (i0 & j0 & H1 & H2 & H3).
    exists (S i0), (S j0). simpl. split; [exact H1|]. split; [exact H2|lia].
Qed.

Lemma sublist_pairs l l' ab : sublist l' l -> In ab (pairs_in_order l') -> In ab (pairs_in_order l).
Proof.
  intros H. induction H as [|z l l' Hs IH|z l l' Hs IH]; simpl; intros Hin.
  - exact Hin.
  - apply in_app_iff in Hin as [Hin|Hin]; apply in_app_iff; [left|right; auto].
    apply in_map_iff in Hin as (y & <- & Hy). apply in_map, (sublist_In _ _ _ Hs Hy).
  - apply in_app_iff. right. auto.
Qed.

Lemma kept_filter {A} (P : A -> Prop) (q : A -> bool) l :
  (forall x, In x l -> q x = true <-> P x) -> kept P l (filter q l).
Proof.
  induction l as [|x l IH]; intros H; simpl; [constructor|].
  pose proof (H x (or_introl eq_refl)) as Hx.
  destruct (q x); constructor; try (apply IH; intros y Hy; apply H; now right).
  - now apply Hx.
  - intros HP. apply Hx in HP. discriminate.
Qed.

Lemma named_smem n s : smem s (as_list n) = true <-> named n s.
Proof.
  rewrite smem_In. destruct n; simpl; [|tauto]. split; [intros [H|[]]; auto|auto].
Qed.

Lemma not_named_smem n s : negb (smem s (as_list n)) = true <-> ~ named n s.
Proof.
  rewrite negb_true_iff, <- named_smem. destruct (smem s (as_list n)); intuition discriminate.
Qed.

(** * Nested specifications *)

Record nested (md' md : model_dict) : Prop := {
  ne_latent : sublist (latent_of md') (latent_of md);
  ne_observed : observed_of md' = observed_of md;
  ne_controls : incl (controls_of md') (controls_of md);
  ne_mixtures : n_mixtures_of md' = n_mixtures_of md;
  ne_anchored : forall f o, anchored md' f o -> anchored md f o;
  ne_factors : forall f fs', In (f, fs') (md_factors md') -> exists fs, In (f, fs) (md_factors md) /\
    (forall p ms', nth_error (fs_measurements fs') p = Some ms' ->
       exists ms, nth_error (fs_measurements fs) p = Some ms /\ incl ms' ms) /\
    incl (transition_parameters (latent_of md' ++ observed_of md') (fs_transition fs'))
         (transition_parameters (latent_of md ++ observed_of md) (fs_transition fs)) }.

Lemma sublist_transition_parameters all all' t :
  sublist all' all -> incl (transition_parameters all' t) (transition_parameters all t).
Proof.
  intros H.
  assert (H1 : incl all' all) by (intros x; now apply sublist_In).
  assert (H2 : forall g : string -> string, incl (map g all') (map g all)).
  { intros g x Hx. apply in_map_iff in Hx as (y & <- & Hy). apply in_map. now apply H1. }
  assert (H3 : incl (map (fun fg => fst fg ++ " * " ++ snd fg)%string (pairs_in_order all'))
                    (map (fun fg => fst fg ++ " * " ++ snd fg)%string (pairs_in_order all))).
  { intros x Hx. apply in_map_iff in Hx as (y & <- & Hy). apply in_map_iff. exists y. split; [reflexivity|exact (sublist_pairs _ _ _ H Hy)]. }
  destruct t as [s| |]; try apply incl_refl.
  cbn [transition_parameters].
  repeat match goal with
  | |- context [match ?x with _ => _ end] => is_var x; destruct x; try apply incl_refl
  | |- context [match ?x with _ => _ end] => destruct x; try apply incl_refl
  end;
  repeat (apply incl_app_app; [auto; fail|]); auto using incl_refl, incl_app_app.
Qed.

Lemma nested_periods md' md n' n :
  nested md' md -> has_n_periods md' n' -> has_n_periods md n -> n' <= n.
Proof.
  intros H [(f & fs' & Hin & <-) _] [_ Hle].
  destruct (ne_factors _ _ H f fs' Hin) as (fs & Hfs & Hms & _).
  destruct (fs_measurements fs') as [|x l] eqn:E; [simpl; lia|].
  assert (Hlast : nth_error (fs_measurements fs') (length l) <> None).
  { rewrite E. apply nth_error_Some. simpl. lia. }
  destruct (nth_error (fs_measurements fs') (length l)) as [ms'|] eqn:Em; [|congruence].
  rewrite E in Em. destruct (Hms _ _ Em) as (ms & Hm & _).
  assert (length l < length (fs_measurements fs)) by (apply nth_error_Some; congruence).
  specialize (Hle f fs Hfs). simpl. lia.
Qed.

Lemma nested_involves md' md n p f v :
  nested md' md -> has_n_periods md n -> involves md' p f v -> involves md p f v.
Proof.
  intros H Hn [(fs' & ms' & Hin & Hp & Hv)|((n' & Hn' & Hlt) & o & Ha & Ev)].
  - left. destruct (ne_factors _ _ H f fs' Hin) as (fs & Hfs & Hms & _).
    destruct (Hms _ _ Hp) as (ms & Hm & Hi). exists fs, ms. auto.
  - right. split.
    + exists n. split; [exact Hn|]. pose proof (nested_periods _ _ _ _ H Hn' Hn). lia.
    + exists o. split; [|exact Ev]. now apply (ne_anchored _ _ H).
Qed.

(** Each parameter of a nested model is a parameter of the full model. *)
Lemma nested_is_param md' md n lb :
  nested md' md -> has_n_periods md n -> is_param md' lb -> is_param md lb.
Proof.
  intros H Hn Hlb.
  assert (Hl : forall f, In f (latent_of md') -> In f (latent_of md)).
  { intros f. apply sublist_In, (ne_latent _ _ H). }
  destruct Hlb as [p v c [f Hf] Hc|p v f Hf Hin|p v [f Hf]|p f n' Hn' Hlt Hf|e f He Hf|e He
                  |e row col frow fcol He Hrow Hcol Hle|p n' f fs name Hn' Hlt Hin Hname].
  - apply par_control; [exists f; eapply nested_involves; eassumption|].
    destruct Hc as [Hc|Hc]; [now left|right]. now apply (ne_controls _ _ H).
  - apply par_loading; [eapply nested_involves; eassumption|auto].
  - apply par_meas_sd. exists f. eapply nested_involves; eassumption.
  - apply (par_shock_sd md p f n Hn); [|auto]. pose proof (nested_periods _ _ _ _ H Hn' Hn). lia.
  - apply par_initial_mean; [|auto]. now rewrite <- (ne_mixtures _ _ H).
  - apply par_mixture_weight. now rewrite <- (ne_mixtures _ _ H).
  - destruct (sublist_positions _ _ (ne_latent _ _ H) _ _ _ _ Hrow Hcol Hle) as (r0 & c0 & H1 & H2 & H3).
    apply (par_initial_chol md e r0 c0); auto. now rewrite <- (ne_mixtures _ _ H).
  - destruct (ne_factors _ _ H f fs Hin) as (fs0 & Hfs & _ & Hpar).
    apply (par_transition md p n f fs0 name Hn); [|exact Hfs|now apply Hpar].
    pose proof (nested_periods _ _ _ _ H Hn' Hn). lia.
Qed.

(** * Rows by label *)

Lemma filter_by_label {A} (rows : list (label * A)) lb :
  NoDup (map fst rows) -> In lb (map fst rows) ->
  exists x, In (lb, x) rows /\ filter (fun row => label_eqb lb (fst row)) rows = [(lb, x)].
Proof.
  induction rows as [|[l x] rows IH]; intros Hnd Hin; [destruct Hin|].
  simpl in Hnd. inversion Hnd as [|? ? Hno Hnd']; subst. cbn [filter fst].
  destruct (label_eqb lb l) eqn:E.
  - apply label_eqb_spec in E as <-. exists x. split; [now left|]. f_equal.
    apply filter_none. intros [l y] Hy. cbn [fst].
    destruct (label_eqb lb l) eqn:E; [|reflexivity]. apply label_eqb_spec in E as <-.
    exfalso. apply Hno. now apply (in_map fst) in Hy.
  - destruct Hin as [Hin|Hin].
    + simpl in Hin. subst l. rewrite (proj2 (label_eqb_spec _ _) eq_refl) in E. discriminate.
    + destruct (IH Hnd' Hin) as (y & Hy & Ef). exists y. split; [now right|exact Ef].
Qed.

Lemma loc_rows_total {A} (rows : list (label * A)) idx :
  NoDup (map fst rows) -> incl idx (map fst rows) ->
  exists out, loc_rows rows idx = Ok out /\ map fst out = idx /\ incl out rows.
Proof.
  intros Hnd. unfold loc_rows. induction idx as [|lb idx IH]; intros Hi.
  - exists []. split; [reflexivity|]. split; [reflexivity|]. intros x [].
  - destruct (filter_by_label rows lb Hnd (Hi lb (or_introl eq_refl))) as (x & Hx & Ef).
    destruct IH as (out & E & Em & Hout). { intros y Hy. apply Hi. now right. }
    exists ((lb, x) :: out). cbn [mapM]. rewrite Ef. cbn [rbind].
    destruct (mapM _ idx) as [blocks|]; [|discriminate]. cbn [rbind] in E |- *.
    injection E as E. split; [simpl; now rewrite E|]. split; [simpl; now rewrite Em|].
    intros r [<-|Hr]; auto.
Qed.

Lemma loc_rows_inv {A} (rows : list (label * A)) idx out :
  NoDup (map fst rows) -> loc_rows rows idx = Ok out ->
  map fst out = idx /\ incl out rows.
Proof.
  intros Hnd H.
  assert (Hi : incl idx (map fst rows)).
  { intros lb Hlb. unfold loc_rows in H. apply rbind_ok in H as (blocks & Hb & _).
    destruct (mapM_In _ _ _ _ Hb Hlb) as (y & Hy & _).
    destruct (filter (fun row => label_eqb lb (fst row)) rows) as [|r rs] eqn:E; [discriminate|].
    assert (Hr : In r (r :: rs)) by now left. rewrite <- E in Hr. apply filter_In in Hr as [Hr Hl].
    apply label_eqb_spec in Hl as ->. now apply in_map. }
  destruct (loc_rows_total rows idx Hnd Hi) as (out' & E & H1 & H2).
  rewrite E in H. injection H as <-. auto.
Qed.

(** * Reducing parameters *)

Lemma reduce_params_nested md md' p params :
  wf_dicts md -> process_model md = Ok p -> wf_dicts md' -> nested md' md -> covers md params ->
  (exists p', process_model md' = Ok p') ->
  exists params', reduce_params params md' = Ok params' /\ part_of md' params params' /\
    forall p2, process_model md' = Ok p2 -> pf_index params' = params_index_of p2.
Proof.
  intros Hwf Hp Hwf' Hne [Hnd Hcov] [p' Hp']. unfold reduce_params, index_from_model_dict.
  rewrite Hp'. cbn [rbind].
  destruct (p_dims_eq md p Hp) as (_ & _ & _ & _ & Hn & _).
  assert (Hi : incl (params_index_of p') (map fst (pf_rows params))).
  { intros lb Hlb. apply Hcov. apply (nested_is_param md' md _ lb Hne Hn).
    now apply (In_params_index md' p'). }
  destruct (loc_rows_total (pf_rows params) (params_index_of p') Hnd Hi) as (out & E & Em & Hout).
  rewrite E. cbn [rbind]. eexists. split; [reflexivity|].
  split; [|intros p2 [= <-]; exact Em].
  split; [reflexivity|]. split.
  - intros lb. unfold pf_index. cbn [pf_rows]. rewrite Em. now apply In_params_index.
  - intros lb cells Hin. now apply Hout.
Qed.

(** * Acceptance of the reduced specifications *)

(** Only some parts of a specification decide about its acceptance. *)
Lemma accepted_iff md : wf_dicts md ->
  (exists p, process_model md = Ok p) <->
  md_options md <> None /\
  exists n, has_n_periods md n /\
    valid_stagemap n (stagemap_of md n) /\
    valid_normalizations md n /\
    (forall f fs, In (f, fs) (md_factors md) -> valid_transition (fs_transition fs)).
Proof. apply process_model_accepts. Qed.

Lemma remove_from_dict_In {V} (d : dict V) n k v :
  In (k, v) (remove_from_dict d n) <-> In (k, v) d /\ ~ named n k.
Proof.
  unfold remove_from_dict. rewrite filter_In. cbn [fst]. now rewrite not_named_smem.
Qed.

Lemma remove_from_dict_kept {V} (d : dict V) n : kept (fun kv => ~ named n (fst kv)) d (remove_from_dict d n).
Proof. apply kept_filter. intros kv _. apply not_named_smem. Qed.

Lemma remove_from_list_kept l n : kept (fun s => ~ named n s) l (remove_from_list l n).
Proof. apply kept_filter. intros kv _. apply not_named_smem. Qed.

Lemma remove_from_list_In l n s : In s (remove_from_list l n) <-> In s l /\ ~ named n s.
Proof. unfold remove_from_list. rewrite filter_In. now rewrite not_named_smem. Qed.

Lemma sublist_map {A B} (g : A -> B) l l' : sublist l' l -> sublist (map g l') (map g l).
Proof. induction 1; simpl; constructor; assumption. Qed.

Lemma sublist_NoDup {A} (l l' : list A) : sublist l' l -> NoDup l -> NoDup l'.
Proof.
  induction 1 as [|x l l' Hs IH|x l l' Hs IH]; intros Hnd; [exact Hnd| |].
  - inversion_clear Hnd as [|? ? Hno Hnd']. constructor; [|auto].
    intros Hin. apply Hno. exact (sublist_In _ _ _ Hs Hin).
  - inversion_clear Hnd. auto.
Qed.

Lemma remove_from_dict_NoDup {V} (d : dict V) n : NoDup (map fst d) -> NoDup (map fst (remove_from_dict d n)).
Proof.
  apply sublist_NoDup, sublist_map. exact (kept_sublist _ _ _ (remove_from_dict_kept d n)).
Qed.

(** ** Shortening *)

Lemma shorten_nonneg {A} (l : list A) k : shorten_if_necessary l (Z.of_nat k) = firstn k l.
Proof.
  unfold shorten_if_necessary, slice_to. destruct (Z.ltb_spec (Z.of_nat k) (Z.of_nat (length l))) as [H|H].
  - destruct (Z.leb_spec 0 (Z.of_nat k)); [|lia]. now rewrite Nat2Z.id.
  - symmetry. apply firstn_all2. lia.
Qed.

Lemma shorten_long {A} (l : list A) k : length l <= k -> shorten_if_necessary l (Z.of_nat k) = l.
Proof. intros H. rewrite shorten_nonneg. now apply firstn_all2. Qed.

Lemma nth_error_firstn_lt {A} (l : list A) k i : i < k -> nth_error (firstn k l) i = nth_error l i.
Proof.
  revert k i. induction l as [|x l IH]; intros [|k] [|i] H; simpl; try lia; try reflexivity.
  apply IH. lia.
Qed.

Lemma nth_error_firstn_Some {A} (l : list A) k i x :
  nth_error (firstn k l) i = Some x <-> i < k /\ nth_error l i = Some x.
Proof.
  split.
  - intros H. assert (i < length (firstn k l)) as Hl by (apply nth_error_Some; congruence).
    rewrite firstn_length in Hl. assert (i < k) as Hk by lia. split; [exact Hk|].
    now rewrite nth_error_firstn_lt in H.
  - intros [Hk H]. now rewrite nth_error_firstn_lt.
Qed.

Lemma valid_stagemap_prefix n k sm :
  valid_stagemap n sm -> 1 <= k -> valid_stagemap (Nat.min k n) (firstn (k - 1) sm).
Proof.
  intros (Hn & Hl & H0 & Hs) Hk. split; [lia|]. split; [rewrite firstn_length; lia|]. split.
  - intros z Hz. apply nth_error_firstn_Some in Hz as [_ Hz]. now apply H0.
  - intros i a b Ha Hb. apply nth_error_firstn_Some in Ha as [_ Ha].
    apply nth_error_firstn_Some in Hb as [_ Hb]. eapply Hs; eassumption.
Qed.

Definition short_factor (k : nat) (fs : factor_spec) : factor_spec :=
  mk_factor (firstn k (fs_measurements fs)) (fs_transition fs)
            (option_map (map_norms (firstn k) (firstn k)) (fs_norm fs)).

Definition short_model (md : model_dict) (k : nat) : model_dict :=
  mk_md (map (fun kv => (fst kv, short_factor k (snd kv))) (md_factors md)) (md_observed md) (md_controls md)
        (option_map (fun sm => shorten_if_necessary sm (Z.of_nat k - 1)) (md_stagemap md))
        (md_anchoring md) (md_options md).

Lemma reduce_n_periods_eq md k params :
  reduce_n_periods md (Z.of_nat k) params
  = with_params (fun ps m => extend_params ps m five_percent) params (short_model md k).
Proof.
  unfold reduce_n_periods. cbn zeta. f_equal. unfold short_model, map_factors. cbn [md_factors md_observed md_controls md_stagemap md_anchoring md_options].
  f_equal. apply map_ext. intros [f fs]. cbn [fst snd]. f_equal. unfold short_factor. f_equal.
  - apply shorten_nonneg.
  - destruct (fs_norm fs) as [[lo ic]|]; [|reflexivity]. simpl. f_equal. unfold map_norms. simpl. f_equal.
    + destruct lo; [|reflexivity]. simpl. now rewrite shorten_nonneg.
    + destruct ic; [|reflexivity]. simpl. now rewrite shorten_nonneg.
Qed.

Lemma short_model_In md k f fs' :
  In (f, fs') (md_factors (short_model md k)) <-> exists fs, In (f, fs) (md_factors md) /\ fs' = short_factor k fs.
Proof.
  cbn [md_factors short_model]. rewrite in_map_iff. split.
  - intros ([g fs] & [= <- <-] & H). eauto.
  - intros (fs & H & ->). exists (f, fs). auto.
Qed.

Lemma short_model_latent md k : latent_of (short_model md k) = latent_of md.
Proof. unfold latent_of. cbn [md_factors short_model]. now rewrite map_map. Qed.

Lemma short_model_wf md k : wf_dicts md -> wf_dicts (short_model md k).
Proof.
  intros [H1 H2]. split; [|exact H2]. pose proof (short_model_latent md k) as E. unfold latent_of in E.
  now rewrite E.
Qed.

Lemma nested_short md k : nested (short_model md k) md.
Proof.
  constructor.
  - rewrite short_model_latent. apply sublist_refl.
  - reflexivity.
  - apply incl_refl.
  - reflexivity.
  - intros f o H. exact H.
  - intros f fs' H. apply short_model_In in H as (fs & H & ->). exists fs. split; [exact H|]. split.
    + intros p ms' Hp. apply nth_error_firstn_Some in Hp as [_ Hp]. exists ms'. split; [exact Hp|apply incl_refl].
    + rewrite short_model_latent. apply incl_refl.
Qed.

Lemma short_model_periods md k n : has_n_periods md n -> has_n_periods (short_model md k) (Nat.min k n).
Proof.
  intros [(f & fs & Hin & Hl) Hle]. split.
  - exists f, (short_factor k fs). split; [apply short_model_In; eauto|]. cbn [fs_measurements short_factor].
    rewrite firstn_length. now rewrite Hl.
  - intros g gs Hg. apply short_model_In in Hg as (gs0 & Hg & ->). cbn [fs_measurements short_factor].
    rewrite firstn_length. specialize (Hle g gs0 Hg). lia.
Qed.

Lemma short_normalized_loading md k p f v q :
  normalized_loading (short_model md k) p f v q -> p < k /\ normalized_loading md p f v q.
Proof.
  intros (fs & nm & lds & d & Hin & Hnm & Hlo & Hp & Hv). apply short_model_In in Hin as (fs0 & Hin & ->).
  cbn [fs_norm short_factor] in Hnm. destruct (fs_norm fs0) as [nm0|] eqn:E0; [|discriminate].
  injection Hnm as <-. cbn [ns_loadings map_norms] in Hlo. destruct (ns_loadings nm0) as [l0|] eqn:El; [|discriminate].
  injection Hlo as <-. apply nth_error_firstn_Some in Hp as [Hk Hp]. split; [exact Hk|].
  exists fs0, nm0, l0, d. auto.
Qed.

Lemma short_normalized_intercept md k p f v q :
  normalized_intercept (short_model md k) p f v q -> p < k /\ normalized_intercept md p f v q.
Proof.
  intros (fs & nm & lds & d & Hin & Hnm & Hlo & Hp & Hv). apply short_model_In in Hin as (fs0 & Hin & ->).
  cbn [fs_norm short_factor] in Hnm. destruct (fs_norm fs0) as [nm0|] eqn:E0; [|discriminate].
  injection Hnm as <-. cbn [ns_intercepts map_norms] in Hlo. destruct (ns_intercepts nm0) as [l0|] eqn:El; [|discriminate].
  injection Hlo as <-. apply nth_error_firstn_Some in Hp as [Hk Hp]. split; [exact Hk|].
  exists fs0, nm0, l0, d. auto.
Qed.

Lemma short_measures md k p f v : measures (short_model md k) p f v <-> p < k /\ measures md p f v.
Proof.
  split.
  - intros (fs & ms & Hin & Hp & Hv). apply short_model_In in Hin as (fs0 & Hin & ->).
    apply nth_error_firstn_Some in Hp as [Hk Hp]. split; [exact Hk|]. exists fs0, ms. auto.
  - intros [Hk (fs & ms & Hin & Hp & Hv)]. exists (short_factor k fs), ms.
    split; [apply short_model_In; eauto|]. split; [|exact Hv]. now apply nth_error_firstn_Some.
Qed.

Lemma default_stagemap_valid n : 1 <= n -> valid_stagemap n (map Z.of_nat (seq 0 (n - 1))).
Proof.
  intros Hn. split; [exact Hn|]. split; [now rewrite map_length, seq_length|].
  assert (G : forall i z, nth_error (map Z.of_nat (seq 0 (n - 1))) i = Some z -> z = Z.of_nat i).
  { intros i z H. rewrite nth_error_map in H. destruct (nth_error (seq 0 (n - 1)) i) as [j|] eqn:E; [|discriminate].
    injection H as <-. assert (i < length (seq 0 (n - 1))) as Hi by (apply nth_error_Some; congruence).
    rewrite seq_length in Hi. apply (nth_error_nth _ _ 0) in E. rewrite seq_nth in E by exact Hi. now subst. }
  split; [intros z Hz; now apply G in Hz|].
  intros i a b Ha Hb. apply G in Ha, Hb. subst. right. lia.
Qed.

(** A specification with some of the factors of an accepted one, shortened to its own
    number of periods or any number. *)
Lemma short_model_accepted md md1 p n n1 k :
  wf_dicts md -> process_model md = Ok p -> has_n_periods md n ->
  wf_dicts md1 -> (forall f fs, In (f, fs) (md_factors md1) -> In (f, fs) (md_factors md)) ->
  md_stagemap md1 = md_stagemap md -> md_options md1 = md_options md ->
  has_n_periods md1 n1 -> 1 <= n1 -> 1 <= k -> Nat.min k n = Nat.min k n1 ->
  exists p', process_model (short_model md1 k) = Ok p'.
Proof.
  intros Hwf Hp Hn Hwf1 Hsub Esm Eop Hn1 H1 Hk Hmin.
  destruct (proj1 (accepted_iff md Hwf) (ex_intro _ p Hp)) as (Ho & m & Hm & Hst & (Hlo & Hic & Hlen) & Htr).
  assert (m = n) as ->.
  { destruct Hm as [(f & fs & Hf & <-) Hm2], Hn as [(g & gs & Hg & <-) Hn2].
    specialize (Hm2 g gs Hg). specialize (Hn2 f fs Hf). lia. }
  apply (accepted_iff _ (short_model_wf md1 k Hwf1)). split; [simpl; now rewrite Eop|].
  exists (Nat.min k n1). split; [now apply short_model_periods|]. split; [|split].
  - unfold stagemap_of. cbn [md_stagemap short_model]. rewrite Esm. unfold stagemap_of in Hst.
    destruct (md_stagemap md) as [sm|]; simpl.
    + replace (Z.of_nat k - 1)%Z with (Z.of_nat (k - 1)) by lia. rewrite shorten_nonneg, <- Hmin.
      now apply valid_stagemap_prefix.
    + apply default_stagemap_valid. lia.
  - assert (Hmeas : forall p f v, measures md p f v -> In f (latent_of md1) -> measures md1 p f v).
    { intros q f v (fs & ms & Hin & H) Hf. exists fs, ms. split; [|exact H].
      unfold latent_of in Hf. apply in_map_iff in Hf as ([f' fs'] & <- & Hf). cbn [fst] in *.
      assert (fs' = fs) as <-; [|exact Hf].
      pose proof (Hsub _ _ Hf) as Hf'. destruct Hwf as [Hnd _].
      pose proof (In_dget _ _ _ Hnd Hin) as G1. pose proof (In_dget _ _ _ Hnd Hf') as G2. congruence. }
    assert (Hlat : forall f fs, In (f, fs) (md_factors md1) -> In f (latent_of md1)).
    { intros f fs H. unfold latent_of. now apply (in_map fst) in H. }
    split; [|split].
    + intros q f v x H. apply short_normalized_loading in H as [Hq (fs & nm & l & d & Hin & H)].
      destruct (Hlo q f v x) as [Hme Hx]; [exists fs, nm, l, d; split; [auto|exact H]|].
      split; [|exact Hx]. apply short_measures. split; [exact Hq|]. apply Hmeas; [exact Hme|eauto].
    + intros q f v x H. apply short_normalized_intercept in H as [Hq (fs & nm & l & d & Hin & H)].
      apply short_measures. split; [exact Hq|]. apply Hmeas; [|eauto].
      apply (Hic q f v x). exists fs, nm, l, d. split; [auto|exact H].
    + intros f fs nm l Hin Hnm Hl. apply short_model_In in Hin as (fs0 & Hin & ->).
      cbn [fs_norm short_factor] in Hnm. destruct (fs_norm fs0) as [nm0|] eqn:E0; [|discriminate].
      injection Hnm as <-. cbn [ns_loadings ns_intercepts map_norms] in Hl. rewrite <- Hmin.
      destruct Hl as [Hl|Hl]; [destruct (ns_loadings nm0) as [l0|] eqn:El|destruct (ns_intercepts nm0) as [l0|] eqn:El];
        try discriminate; injection Hl as <-; rewrite firstn_length;
        specialize (Hlen f fs0 nm0 l0 (Hsub _ _ Hin) E0); [specialize (Hlen (or_introl El))|specialize (Hlen (or_intror El))]; lia.
  - intros f fs Hin. apply short_model_In in Hin as (fs0 & Hin & ->). simpl. apply (Htr f). auto.
Qed.

(** ** Removed factors *)

Definition without_factors (factors : names) (md : model_dict) (anchoring : option anchoring_spec) : model_dict :=
  mk_md (remove_from_dict (md_factors md) factors) (md_observed md) (md_controls md)
        (md_stagemap md) anchoring (md_options md).

Lemma remove_factors_unfold factors md params out :
  remove_factors factors md params = Ok out <->
  exists anchoring d, reduced_anchoring factors (md_anchoring md) anchoring /\
    get_dimensions (without_factors factors md anchoring) = Ok d /\
    with_params reduce_params params (short_model (without_factors factors md anchoring) (n_periods d)) = Ok out.
Proof.
  unfold remove_factors. fold (without_factors factors md). split.
  - intros H. apply rbind_ok in H as (anchoring & Ha & H). cbv zeta in H.
    change (mk_md (remove_from_dict (md_factors md) factors) (md_observed md) (md_controls md)
        (md_stagemap md) anchoring (md_options md)) with (without_factors factors md anchoring) in H.
    apply rbind_ok in H as (d & Hd & H). rewrite reduce_n_periods_eq in H. cbn [with_params rbind fst] in H.
    exists anchoring, d. split; [|auto]. unfold reduced_anchoring.
    destruct (md_anchoring md) as [a|]; [|now injection Ha].
    destruct (as_outcomes a) as [outcomes|]; [|discriminate].
    exists outcomes, (remove_from_dict outcomes factors). split; [reflexivity|]. split; [apply remove_from_dict_kept|].
    destruct (remove_from_dict outcomes factors) as [|x l]; injection Ha as <-; [now left|right]. split; [discriminate|reflexivity].
  - intros (anchoring & d & Ha & Hd & H). unfold reduced_anchoring in Ha.
    assert (E : match md_anchoring md with
                  | None => Ok None
                  | Some a =>
                      match as_outcomes a with
                      | None => Err KeyError
                      | Some outcomes =>
                          match remove_from_dict outcomes factors with
                          | [] => Ok None
                          | outcomes => Ok (Some (mk_anch (Some outcomes) (as_free_controls a)
                                              (as_free_constant a) (as_free_loadings a)
                                              (as_ignore_constant a)))
                          end
                      end
                  end = Ok anchoring).
    { destruct (md_anchoring md) as [a|]; [|now subst].
      destruct Ha as (outcomes & left & -> & Hk & Hl).
      assert (Eq : forall l l', kept (fun fo : string * string => ~ named factors (fst fo)) l l' -> l' = remove_from_dict l factors).
      { clear. induction 1 as [|x l l' Hx Hk IH|x l l' Hx Hk IH]; [reflexivity| |];
          unfold remove_from_dict in *; cbn [filter].
        - apply not_named_smem in Hx. rewrite Hx. now rewrite <- IH.
        - destruct (negb (smem (fst x) (as_list factors))) eqn:Ex; [|exact IH].
          apply not_named_smem in Ex. contradiction. }
      apply Eq in Hk. subst left. destruct (remove_from_dict outcomes factors) as [|x l].
      - destruct Hl as [[_ ->]|[H0 _]]; [reflexivity|congruence].
      - destruct Hl as [[H0 _]|[_ ->]]; [discriminate|reflexivity]. }
    rewrite E. cbn [rbind]. cbv zeta.
    change (mk_md (remove_from_dict (md_factors md) factors) (md_observed md) (md_controls md)
        (md_stagemap md) anchoring (md_options md)) with (without_factors factors md anchoring).
    rewrite Hd. cbn [rbind]. rewrite reduce_n_periods_eq. exact H.
Qed.

Lemma without_factors_In factors md anch f fs :
  In (f, fs) (md_factors (without_factors factors md anch)) <-> In (f, fs) (md_factors md) /\ ~ named factors f.
Proof. apply remove_from_dict_In. Qed.

Lemma kept_In {A} (P : A -> Prop) l l' x : kept P l l' -> In x l' <-> In x l /\ P x.
Proof.
  induction 1 as [|y l l' Hy Hk IH|y l l' Hy Hk IH]; simpl; [tauto| |]; rewrite IH.
  - split; [intros [->|[H1 H2]]; auto|]. intros [[->|H] HP]; auto.
  - split; [intros [H1 H2]; auto|]. intros [[->|H] HP]; [contradiction|auto].
Qed.

Lemma reduced_anchoring_In factors md anch f o : reduced_anchoring factors (md_anchoring md) anch ->
  anchored (without_factors factors md anch) f o <-> anchored md f o /\ ~ named factors f.
Proof.
  unfold reduced_anchoring, anchored. cbn [md_anchoring without_factors]. intros H. split.
  - intros (a & outs & Ea & Eo & Hin). destruct (md_anchoring md) as [a0|]; [|congruence].
    destruct H as (outcomes & left & E0 & Hk & [[_ E]|[_ E]]); [congruence|].
    rewrite Ea in E. injection E as ->. cbn [as_outcomes] in Eo. injection Eo as <-.
    apply (kept_In _ _ _ _ Hk) in Hin as [Hin Hnot]. split; [|exact Hnot]. eauto.
  - intros [(a & outs & Ea & Eo & Hin) Hnot]. rewrite Ea in H.
    destruct H as (outcomes & left & E0 & Hk & Hl). rewrite Eo in E0. injection E0 as <-.
    assert (Hin' : In (f, o) left) by (apply (kept_In _ _ _ _ Hk); auto).
    destruct Hl as [[-> _]|[_ ->]]; [destruct Hin'|]. eexists _, _. split; [reflexivity|]. split; [reflexivity|exact Hin'].
Qed.

Lemma without_factors_wf factors md anch : reduced_anchoring factors (md_anchoring md) anch ->
  wf_dicts md -> wf_dicts (without_factors factors md anch).
Proof.
  intros Ha [H1 H2]. split; [now apply remove_from_dict_NoDup|].
  cbn [md_anchoring without_factors]. intros a o Ea Eo. unfold reduced_anchoring in Ha.
  destruct (md_anchoring md) as [a0|] eqn:E; [|congruence].
  destruct Ha as (outs & left & E0 & Hk & [[_ Ha]|[_ Ha]]); [congruence|].
  rewrite Ea in Ha. injection Ha as ->. cbn [as_outcomes] in Eo. injection Eo as <-.
  specialize (H2 a0 outs eq_refl E0). revert H2. apply sublist_NoDup, sublist_map. exact (kept_sublist _ _ _ Hk).
Qed.

Lemma nested_without factors md anch : reduced_anchoring factors (md_anchoring md) anch ->
  nested (without_factors factors md anch) md.
Proof.
  intros Ha.
  assert (Hs : sublist (latent_of (without_factors factors md anch)) (latent_of md)).
  { apply sublist_map. exact (kept_sublist _ _ _ (remove_from_dict_kept _ _)). }
  constructor.
  - exact Hs.
  - reflexivity.
  - apply incl_refl.
  - reflexivity.
  - intros f o H. now apply (reduced_anchoring_In factors md anch).
  - intros f fs H. apply without_factors_In in H as [H _]. exists fs. split; [exact H|]. split.
    + intros p ms Hp. exists ms. split; [exact Hp|apply incl_refl].
    + apply sublist_transition_parameters. now apply sublist_app.
Qed.

Lemma sublist_trans {A} (l1 l2 l3 : list A) : sublist l1 l2 -> sublist l2 l3 -> sublist l1 l3.
Proof.
  intros H12 H23. revert l1 H12. induction H23 as [|x l l' Hs IH|x l l' Hs IH]; intros l1 H12.
  - exact H12.
  - inversion H12; subst; constructor; auto.
  - constructor. auto.
Qed.

Lemma nested_trans a b c : nested a b -> nested b c -> nested a c.
Proof.
  intros H1 H2. constructor.
  - exact (sublist_trans _ _ _ (ne_latent _ _ H1) (ne_latent _ _ H2)).
  - rewrite (ne_observed _ _ H1). exact (ne_observed _ _ H2).
  - exact (incl_tran (ne_controls _ _ H1) (ne_controls _ _ H2)).
  - rewrite (ne_mixtures _ _ H1). exact (ne_mixtures _ _ H2).
  - intros f o H. apply (ne_anchored _ _ H2), (ne_anchored _ _ H1), H.
  - intros f fs H. destruct (ne_factors _ _ H1 f fs H) as (gs & Hg & Hm & Hp).
    destruct (ne_factors _ _ H2 f gs Hg) as (hs & Hh & Hm' & Hp'). exists hs. split; [exact Hh|]. split.
    + intros p ms Hq. destruct (Hm p ms Hq) as (ms1 & Hq1 & Hi1). destruct (Hm' p ms1 Hq1) as (ms2 & Hq2 & Hi2).
      exists ms2. split; [exact Hq2|exact (incl_tran Hi1 Hi2)].
    + exact (incl_tran Hp Hp').
Qed.

Lemma get_dimensions_periods md d : get_dimensions md = Ok d -> has_n_periods md (n_periods d).
Proof.
  intros H. apply get_dimensions_ok in H. destruct H as (o & Ho & Hn & Hd). exact Hn.
Qed.

Lemma get_dimensions_total md : md_options md <> None -> md_factors md <> [] ->
  exists d, get_dimensions md = Ok d.
Proof.
  intros Ho Hf. unfold get_dimensions. destruct (md_factors md) as [|x l]; [congruence|].
  simpl. destruct (md_options md); [eauto|congruence].
Qed.

(** ** Changes of the factors *)

Lemma map_factors_In g md f fs' :
  In (f, fs') (md_factors (map_factors g md)) <-> exists fs, In (f, fs) (md_factors md) /\ fs' = g fs.
Proof.
  cbn [md_factors map_factors]. rewrite in_map_iff. split.
  - intros ([h fs] & [= <- <-] & H). eauto.
  - intros (fs & H & ->). exists (f, fs). auto.
Qed.

Lemma map_factors_latent g md : latent_of (map_factors g md) = latent_of md.
Proof. unfold latent_of. cbn [md_factors map_factors]. now rewrite map_map. Qed.

Lemma map_factors_wf g md : wf_dicts md -> wf_dicts (map_factors g md).
Proof.
  intros [H1 H2]. split; [|exact H2]. pose proof (map_factors_latent g md) as E. unfold latent_of in E.
  now rewrite E.
Qed.

Lemma map_factors_periods g md n :
  (forall fs, length (fs_measurements (g fs)) = length (fs_measurements fs)) ->
  has_n_periods (map_factors g md) n <-> has_n_periods md n.
Proof.
  intros Hg. split; intros [(f & fs & Hin & Hl) Hle].
  - split.
    + apply map_factors_In in Hin as (fs0 & Hin & ->). exists f, fs0. split; [exact Hin|]. now rewrite <- Hg.
    + intros h hs Hh. rewrite <- Hg. apply (Hle h). apply map_factors_In. eauto.
  - split.
    + exists f, (g fs). split; [apply map_factors_In; eauto|]. now rewrite Hg.
    + intros h hs Hh. apply map_factors_In in Hh as (hs0 & Hh & ->). rewrite Hg. eauto.
Qed.

(** ** Removed measurements *)

Definition reduced_factor (measurements : names) (fs : factor_spec) : factor_spec :=
  mk_factor (map (fun meas_list => remove_from_list meas_list measurements) (fs_measurements fs))
            (fs_transition fs)
            (option_map (map_norms (remove_from_normalizations measurements)
                                   (remove_from_normalizations measurements)) (fs_norm fs)).

Lemma remove_measurements_eq measurements md params :
  remove_measurements measurements md params
  = with_params reduce_params params (map_factors (reduced_factor measurements) md).
Proof. reflexivity. Qed.

Lemma reduced_measures ms md p f v :
  measures (map_factors (reduced_factor ms) md) p f v <-> measures md p f v /\ ~ named ms v.
Proof.
  split.
  - intros (fs & l & Hin & Hp & Hv). apply map_factors_In in Hin as (fs0 & Hin & ->).
    cbn [fs_measurements reduced_factor] in Hp. rewrite nth_error_map in Hp.
    destruct (nth_error (fs_measurements fs0) p) as [l0|] eqn:E; [|discriminate]. injection Hp as <-.
    apply remove_from_list_In in Hv as [Hv Hno]. split; [|exact Hno]. exists fs0, l0. auto.
  - intros [(fs & l & Hin & Hp & Hv) Hno]. exists (reduced_factor ms fs), (remove_from_list l ms).
    split; [apply map_factors_In; eauto|]. split; [|now apply remove_from_list_In].
    cbn [fs_measurements reduced_factor]. now rewrite nth_error_map, Hp.
Qed.

Lemma reduced_normalized_loading ms md p f v q :
  normalized_loading (map_factors (reduced_factor ms) md) p f v q <-> normalized_loading md p f v q /\ ~ named ms v.
Proof.
  split.
  - intros (fs & nm & lds & d & Hin & Hnm & Hlo & Hp & Hv). apply map_factors_In in Hin as (fs0 & Hin & ->).
    cbn [fs_norm reduced_factor] in Hnm. destruct (fs_norm fs0) as [nm0|] eqn:E0; [|discriminate].
    injection Hnm as <-. cbn [ns_loadings map_norms] in Hlo. destruct (ns_loadings nm0) as [l0|] eqn:El; [|discriminate].
    injection Hlo as <-. unfold remove_from_normalizations in Hp. rewrite nth_error_map in Hp.
    destruct (nth_error l0 p) as [d0|] eqn:Ed; [|discriminate]. injection Hp as <-.
    apply remove_from_dict_In in Hv as [Hv Hno]. split; [|exact Hno]. exists fs0, nm0, l0, d0. auto.
  - intros [(fs & nm & lds & d & Hin & Hnm & Hlo & Hp & Hv) Hno].
    eexists (reduced_factor ms fs), _, _, (remove_from_dict d ms).
    split; [apply map_factors_In; eauto|]. cbn [fs_norm reduced_factor]. rewrite Hnm. cbn [option_map].
    split; [reflexivity|]. cbn [ns_loadings map_norms]. rewrite Hlo. cbn [option_map]. split; [reflexivity|].
    split; [|now apply remove_from_dict_In]. unfold remove_from_normalizations. now rewrite nth_error_map, Hp.
Qed.

Lemma reduced_normalized_intercept ms md p f v q :
  normalized_intercept (map_factors (reduced_factor ms) md) p f v q <-> normalized_intercept md p f v q /\ ~ named ms v.
Proof.
  split.
  - intros (fs & nm & lds & d & Hin & Hnm & Hlo & Hp & Hv). apply map_factors_In in Hin as (fs0 & Hin & ->).
    cbn [fs_norm reduced_factor] in Hnm. destruct (fs_norm fs0) as [nm0|] eqn:E0; [|discriminate].
    injection Hnm as <-. cbn [ns_intercepts map_norms] in Hlo. destruct (ns_intercepts nm0) as [l0|] eqn:El; [|discriminate].
    injection Hlo as <-. unfold remove_from_normalizations in Hp. rewrite nth_error_map in Hp.
    destruct (nth_error l0 p) as [d0|] eqn:Ed; [|discriminate]. injection Hp as <-.
    apply remove_from_dict_In in Hv as [Hv Hno]. split; [|exact Hno]. exists fs0, nm0, l0, d0. auto.
  - intros [(fs & nm & lds & d & Hin & Hnm & Hlo & Hp & Hv) Hno].
    eexists (reduced_factor ms fs), _, _, (remove_from_dict d ms).
    split; [apply map_factors_In; eauto|]. cbn [fs_norm reduced_factor]. rewrite Hnm. cbn [option_map].
    split; [reflexivity|]. cbn [ns_intercepts map_norms]. rewrite Hlo. cbn [option_map]. split; [reflexivity|].
    split; [|now apply remove_from_dict_In]. unfold remove_from_normalizations. now rewrite nth_error_map, Hp.
Qed.

Lemma reduced_factor_length ms fs : length (fs_measurements (reduced_factor ms fs)) = length (fs_measurements fs).
Proof. simpl. now rewrite map_length. Qed.

Lemma nested_reduced ms md : nested (map_factors (reduced_factor ms) md) md.
Proof.
  constructor; try reflexivity.
  - rewrite map_factors_latent. apply sublist_refl.
  - apply incl_refl.
  - intros f o H. exact H.
  - intros f fs H. apply map_factors_In in H as (fs0 & H & ->). exists fs0. split; [exact H|]. split.
    + intros p l Hp. cbn [fs_measurements reduced_factor] in Hp. rewrite nth_error_map in Hp.
      destruct (nth_error (fs_measurements fs0) p) as [l0|] eqn:E; [|discriminate]. injection Hp as <-.
      exists l0. split; [reflexivity|]. intros v Hv. now apply remove_from_list_In in Hv.
    + rewrite map_factors_latent. apply incl_refl.
Qed.

Lemma reduced_accepted ms md p : wf_dicts md -> process_model md = Ok p ->
  exists p', process_model (map_factors (reduced_factor ms) md) = Ok p'.
Proof.
  intros Hwf Hp. pose proof (proj1 (accepted_iff md Hwf) (ex_intro _ p Hp)) as (Ho & n & Hn & Hst & (Hlo & Hic & Hlen) & Htr).
  apply (accepted_iff _ (map_factors_wf _ md Hwf)). split; [exact Ho|]. exists n.
  split; [now apply map_factors_periods; [apply reduced_factor_length|]|]. split; [exact Hst|]. split; [split; [|split]|].
  - intros q f v x H. apply reduced_normalized_loading in H as [H Hno]. destruct (Hlo q f v x H) as [Hm Hx].
    split; [|exact Hx]. now apply reduced_measures.
  - intros q f v x H. apply reduced_normalized_intercept in H as [H Hno]. apply reduced_measures. eauto.
  - intros f fs nm l Hin Hnm Hl. apply map_factors_In in Hin as (fs0 & Hin & ->).
    cbn [fs_norm reduced_factor] in Hnm. destruct (fs_norm fs0) as [nm0|] eqn:E0; [|discriminate].
    injection Hnm as <-. cbn [ns_loadings ns_intercepts map_norms] in Hl.
    destruct Hl as [Hl|Hl]; [destruct (ns_loadings nm0) as [l0|] eqn:El|destruct (ns_intercepts nm0) as [l0|] eqn:El];
      try discriminate; injection Hl as <-; unfold remove_from_normalizations; rewrite map_length;
      apply (Hlen f fs0 nm0 l0 Hin E0); auto.
  - intros f fs Hin. apply map_factors_In in Hin as (fs0 & Hin & ->). simpl. now apply (Htr f).
Qed.

(** ** Switched transition functions *)

Lemma switch_length old new fs : length (fs_measurements (switch_transition old new fs)) = length (fs_measurements fs).
Proof. reflexivity. Qed.

Lemma switch_accepted old new md p : In new known_transition_functions ->
  wf_dicts md -> process_model md = Ok p ->
  exists p', process_model (map_factors (switch_transition old new) md) = Ok p'.
Proof.
  intros Hnew Hwf Hp. pose proof (proj1 (accepted_iff md Hwf) (ex_intro _ p Hp)) as (Ho & n & Hn & Hst & (Hlo & Hic & Hlen) & Htr).
  apply (accepted_iff _ (map_factors_wf _ md Hwf)). split; [exact Ho|]. exists n.
  assert (Hme : forall q f v, measures md q f v -> measures (map_factors (switch_transition old new) md) q f v).
  { intros q f v (fs & ms & Hin & H). exists (switch_transition old new fs), ms. split; [apply map_factors_In; eauto|exact H]. }
  split; [now apply map_factors_periods; [apply switch_length|]|]. split; [exact Hst|]. split; [split; [|split]|].
  - intros q f v x (fs & nm & l & d & Hin & H). apply map_factors_In in Hin as (fs0 & Hin & ->).
    destruct (Hlo q f v x) as [H1 H2]; [exists fs0, nm, l, d; auto|]. auto.
  - intros q f v x (fs & nm & l & d & Hin & H). apply map_factors_In in Hin as (fs0 & Hin & ->).
    apply Hme, (Hic q f v x). exists fs0, nm, l, d. auto.
  - intros f fs nm l Hin Hnm Hl. apply map_factors_In in Hin as (fs0 & Hin & ->). eapply Hlen; eassumption.
  - intros f fs Hin. apply map_factors_In in Hin as (fs0 & Hin & ->). cbn [fs_transition switch_transition].
    specialize (Htr f fs0 Hin). destruct (fs_transition fs0) as [s| |]; try exact Htr.
    destruct (String.eqb s old); [|exact Htr]. left. eauto.
Qed.

Lemma linear_in_translog all : incl (transition_parameters all (TStr "linear")) (transition_parameters all (TStr "translog")).
Proof. cbn [transition_parameters]. intros x Hx. rewrite !in_app_iff in *. tauto. Qed.

Lemma nested_translog_to_linear md : nested (map_factors (switch_transition "translog" "linear") md) md.
Proof.
  constructor; try reflexivity.
  - rewrite map_factors_latent. apply sublist_refl.
  - apply incl_refl.
  - intros f o H. exact H.
  - intros f fs H. apply map_factors_In in H as (fs0 & H & ->). exists fs0. split; [exact H|]. split.
    + intros p l Hp. exists l. split; [exact Hp|apply incl_refl].
    + rewrite map_factors_latent. cbn [fs_transition switch_transition].
      destruct (fs_transition fs0) as [s| |]; try apply incl_refl.
      destruct (String.eqb_spec s "translog") as [->|]; [apply linear_in_translog|apply incl_refl].
Qed.

Lemma nested_linear_to_translog md : nested md (map_factors (switch_transition "linear" "translog") md).
Proof.
  constructor; try reflexivity.
  - rewrite map_factors_latent. apply sublist_refl.
  - apply incl_refl.
  - intros f o H. exact H.
  - intros f fs H. exists (switch_transition "linear" "translog" fs). split; [apply map_factors_In; eauto|]. split.
    + intros p l Hp. exists l. split; [exact Hp|apply incl_refl].
    + rewrite map_factors_latent. cbn [fs_transition switch_transition].
      destruct (fs_transition fs) as [s| |]; try apply incl_refl.
      destruct (String.eqb_spec s "linear") as [->|]; [apply linear_in_translog|apply incl_refl].
Qed.
