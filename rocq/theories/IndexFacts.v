(** Facts about the params index. *)
Require Import String Ascii Arith ZArith QArith Bool List Lia Sorted.
From Verif Require Import PyBase ListFacts StringFacts ModelSpec ProcessModel CheckModel SpecModel
  ProcessModelFacts AcceptFacts ParamsIndex SpecIndex.
Import ListNotations.
Open Scope string_scope.
Open Scope list_scope.
Open Scope nat_scope.

(** ** Transition parameters *)

Lemma combinations2_pairs l : combinations2 l = pairs_in_order l.
Proof. induction l as [|x l IH]; simpl; [reflexivity|]. now rewrite IH. Qed.

Lemma transition_of_spec_params all t r :
  transition_of_spec all t = Ok r -> fst r = transition_parameters all t.
Proof.
  unfold transition_of_spec. destruct t as [s|n ps|]; [| |discriminate].
  - destruct (tf_of_string s) as [t|] eqn:E; [|discriminate]. intros [= <-]. simpl fst.
    unfold tf_of_string in E.
    repeat match type of E with
           | (if String.eqb s ?x then _ else _) = _ =>
               destruct (String.eqb_spec s x) as [->|];
               [simpl in E; injection E as <-; simpl; unfold params_robust_translog, params_translog;
                rewrite ?combinations2_pairs; reflexivity|]
           end. discriminate.
  - destruct n, ps; try discriminate. now intros [= <-].
Qed.

(** What [process_model] stores about the transition functions. *)
Definition function_name (t : trans_spec) : string :=
  match t with TStr s => s | TFun (Some n) _ => n | _ => "" end.

Lemma transition_of_spec_name all t r :
  transition_of_spec all t = Ok r -> snd r = function_name t.
Proof.
  unfold transition_of_spec. destruct t as [s|n ps|]; [| |discriminate].
  - destruct (tf_of_string s) as [t|] eqn:E; [|discriminate]. now intros [= <-].
  - destruct n, ps; try discriminate. now intros [= <-].
Qed.

Lemma process_tinfo md p :
  wf_dicts md -> process_model md = Ok p ->
  t_param_names (p_tinfo p) =
    map (fun ffs => (fst ffs, transition_parameters (latent_of md ++ observed_of md)
                                (fs_transition (snd ffs)))) (md_factors md) /\
  t_function_names (p_tinfo p) =
    map (fun ffs => (fst ffs, function_name (fs_transition (snd ffs)))) (md_factors md).
Proof.
  intros [Hnd _] H. apply process_model_inv in H.
  destruct H as [_ [Hl [_ [_ [_ [Ht _]]]]]]. rewrite Hl in Ht.
  unfold get_transition_info in Ht. apply rbind_ok in Ht. destruct Ht as [infos [Hi Ht]].
  injection Ht as Ht. rewrite <- Ht. simpl t_param_names. simpl t_function_names. clear Ht.
  change (l_latent (get_labels md (p_dims p))) with (map fst (md_factors md)) in *.
  rewrite mapM_map in Hi.
  assert (mapM (fun x : string * factor_spec =>
             do fs <- dget_err (md_factors md) (fst x);
             transition_of_spec (l_all (get_labels md (p_dims p))) (fs_transition fs))
             (md_factors md)
          = mapM (fun x => transition_of_spec (latent_of md ++ observed_of md)
                             (fs_transition (snd x))) (md_factors md)) as E.
  { apply mapM_ext. intros [f fs] Hin. simpl. unfold dget_err.
    rewrite (In_dget _ _ _ Hnd Hin). reflexivity. }
  rewrite E in Hi. clear E.
  change (dkeys (md_factors md)) with (map fst (md_factors md)).
  revert infos Hi. generalize (md_factors md) as l. clear.
  induction l as [|[f fs] l IH]; intros infos Hi; simpl in Hi.
  - injection Hi as <-. split; reflexivity.
  - apply rbind_ok in Hi. destruct Hi as [r [Hr Hi]].
    apply rbind_ok in Hi. destruct Hi as [rs [Hrs Hi]]. injection Hi as <-. simpl.
    destruct (IH rs Hrs) as [-> ->].
    apply transition_of_spec_params in Hr as H1. apply transition_of_spec_name in Hr as H2.
    rewrite H1, H2. split; reflexivity.
Qed.

(** ** Membership *)

Lemma p_labels_eq md p :
  process_model md = Ok p ->
  l_latent (p_labels p) = latent_of md /\ l_observed (p_labels p) = observed_of md /\
  l_controls (p_labels p) = "constant" :: controls_of md /\
  l_periods (p_labels p) = range (n_periods (p_dims p)) /\
  l_stagemap (p_labels p) = stagemap_of md (n_periods (p_dims p)) /\
  l_stages (p_labels p) = zsort_unique (stagemap_of md (n_periods (p_dims p))).
Proof.
  intros H. apply process_model_inv in H. destruct H as [_ [-> _]].
  repeat split; auto using l_stagemap_eq, l_stages_eq.
Qed.

Lemma p_dims_eq md p :
  process_model md = Ok p ->
  n_latent (p_dims p) = length (latent_of md) /\
  n_observed (p_dims p) = length (observed_of md) /\
  n_controls (p_dims p) = S (length (controls_of md)) /\
  n_mixtures (p_dims p) = n_mixtures_of md /\
  has_n_periods md (n_periods (p_dims p)) /\ 1 <= n_periods (p_dims p).
Proof.
  intros H. apply process_model_inv in H. destruct H as [Hd [Hl [_ [_ [Hc _]]]]].
  apply get_dimensions_ok in Hd. destruct Hd as [o [Ho [Hn Hd]]].
  split; [|split; [|split; [|split; [|split; [exact Hn|]]]]];
    try (rewrite Hd; simpl; unfold latent_of; rewrite ?map_length; lia || reflexivity).
  rewrite Hl in Hc. unfold check_model in Hc. apply rbind_ok in Hc.
  destruct Hc as [rn [_ Hc]].
  destruct (check_stagemap (l_stagemap (get_labels md (p_dims p)))
              (l_stages (get_labels md (p_dims p))) (n_periods (p_dims p))) eqn:E;
    [|discriminate].
  rewrite l_stages_eq, l_stagemap_eq in E. apply check_stagemap_valid in E. apply E.
Qed.

Lemma In_p_update_keys md p :
  wf_dicts md -> process_model md = Ok p ->
  forall k v, In (k, v) (map u_key (p_update p)) <-> is_equation md k v.
Proof.
  intros Hwf Hp k v. destruct (process_update_table md p Hwf Hp) as [-> Hn].
  rewrite table_keys, In_first_appearances, in_map_iff. split.
  - intros [[[[k' f] v'] pu] [Hk Hin]]. injection Hk as -> ->. exists f.
    apply (In_events md _ k f v pu Hn) in Hin. destruct Hin as [[_ H]|[_ H]]; [left|right]; auto.
  - intros [f [H|H]].
    + exists (k, f, v, PMeasurement). split; [reflexivity|]. apply In_events; auto.
    + exists (k, f, v, PAnchoring). split; [reflexivity|]. apply In_events; auto.
Qed.

Lemma p_update_flag md p r f :
  wf_dicts md -> process_model md = Ok p -> In r (p_update p) ->
  (u_flag r f = true <-> involves md (u_period r) f (u_var r)).
Proof.
  intros Hwf Hp Hr. destruct (process_update_table md p Hwf Hp) as [E Hn].
  rewrite E in Hr. apply table_row in Hr. destruct Hr as [Hf _].
  unfold u_flag. rewrite smem_In, Hf. split.
  - intros [pu Hpu]. apply In_events in Hpu; [|exact Hn].
    destruct Hpu as [[_ H]|[_ H]]; [left|right]; auto.
  - intros [H|H]; [exists PMeasurement|exists PAnchoring]; apply In_events; auto.
Qed.

Lemma In_rows_eq md p k v :
  wf_dicts md -> process_model md = Ok p ->
  (exists r, In r (p_update p) /\ u_period r = k /\ u_var r = v) <-> is_equation md k v.
Proof.
  intros Hwf Hp. rewrite <- (In_p_update_keys md p Hwf Hp), in_map_iff. unfold u_key. split.
  - intros [r [H [<- <-]]]. eauto.
  - intros [r [[= <- <-] H]]. eauto.
Qed.

Lemma In_drop_last_range p n : In p (drop_last (range n)) <-> p + 1 < n.
Proof. rewrite drop_last_range, In_range. lia. Qed.

Lemma In_params_index md p lb :
  wf_dicts md -> process_model md = Ok p ->
  In lb (params_index_of p) <-> is_param md lb.
Proof.
  intros Hwf Hp. unfold params_index_of, get_params_index.
  destruct (p_labels_eq md p Hp) as [El [Eo [Ec [Ep _]]]].
  destruct (p_dims_eq md p Hp) as [_ [_ [_ [Em [Hn _]]]]].
  destruct (process_tinfo md p Hwf Hp) as [Et _].
  rewrite El, Ec, Ep, Em, Et. rewrite !in_app_iff. split.
  - intros [H|[H|[H|[H|[H|[H|[H|H]]]]]]].
    + apply in_flat_map in H. destruct H as [r [Hr H]].
      apply in_map_iff in H. destruct H as [c [<- Hc]]. constructor.
      * apply (In_rows_eq md p); eauto.
      * destruct Hc; auto.
    + apply in_flat_map in H. destruct H as [r [Hr H]].
      apply in_flat_map in H. destruct H as [f [Hf H]].
      destruct (u_flag r f) eqn:E; [|destruct H]. destruct H as [<-|[]].
      constructor; [|exact Hf]. now apply (p_update_flag md p).
    + apply in_map_iff in H. destruct H as [r [<- Hr]]. constructor.
      apply (In_rows_eq md p); eauto.
    + apply in_flat_map in H. destruct H as [k [Hk H]].
      apply in_map_iff in H. destruct H as [f [<- Hf]].
      apply In_drop_last_range in Hk. econstructor; eauto.
    + apply in_flat_map in H. destruct H as [e [He H]].
      apply in_map_iff in H. destruct H as [f [<- Hf]]. apply In_range in He.
      now constructor.
    + apply in_map_iff in H. destruct H as [e [<- He]]. apply In_range in He. now constructor.
    + apply in_flat_map in H. destruct H as [e [He H]]. apply In_range in He.
      apply in_flat_map in H. destruct H as [[row frow] [Hrow H]].
      apply in_flat_map in H. destruct H as [[col fcol] [Hcol H]]. simpl in H.
      destruct (col <=? row) eqn:E; [|destruct H]. destruct H as [<-|[]].
      apply In_enumerate in Hrow. apply In_enumerate in Hcol. apply Nat.leb_le in E.
      econstructor; eauto.
    + apply in_flat_map in H. destruct H as [[f names] [Hf H]].
      apply in_map_iff in Hf. destruct Hf as [[f' fs] [[= <- <-] Hin]].
      apply in_flat_map in H. destruct H as [k [Hk H]].
      apply in_map_iff in H. destruct H as [name [<- Hname]]. simpl in Hname |- *.
      apply In_drop_last_range in Hk. econstructor; eauto.
  - intros H. destruct H as [k v c Heq Hc|k v f Hinv Hf|k v Heq|k f n Hn' Hk Hf|e f He Hf|e He
      |e row col frow fcol He Hr Hc Hle|k n f fs name Hn' Hk Hin Hname].
    + left. apply (In_rows_eq md p k v Hwf Hp) in Heq. destruct Heq as [r [Hr [<- <-]]].
      apply in_flat_map. exists r. split; [exact Hr|]. apply in_map_iff. exists c.
      split; [reflexivity|]. destruct Hc; [left; congruence | now right].
    + right; left.
      assert (is_equation md k v) as Heq by (exists f; exact Hinv).
      apply (In_rows_eq md p k v Hwf Hp) in Heq. destruct Heq as [r [Hr [<- <-]]].
      apply in_flat_map. exists r. split; [exact Hr|]. apply in_flat_map. exists f.
      split; [exact Hf|]. apply (p_update_flag md p r f Hwf Hp Hr) in Hinv.
      rewrite Hinv. now left.
    + do 2 right; left. apply (In_rows_eq md p k v Hwf Hp) in Heq.
      destruct Heq as [r [Hr [<- <-]]]. apply in_map_iff. eauto.
    + do 3 right; left. rewrite (has_n_periods_fun _ _ _ Hn' Hn) in Hk.
      apply in_flat_map. exists k. split; [now apply In_drop_last_range|].
      apply in_map_iff. eauto.
    + do 4 right; left. apply in_flat_map. exists e. split; [now apply In_range|].
      apply in_map_iff. eauto.
    + do 5 right; left. apply in_map_iff. exists e. split; [reflexivity|]. now apply In_range.
    + do 6 right; left. apply in_flat_map. exists e. split; [now apply In_range|].
      apply in_flat_map. exists (row, frow). split; [now apply In_enumerate|].
      apply in_flat_map. exists (col, fcol). split; [now apply In_enumerate|]. simpl.
      apply Nat.leb_le in Hle. rewrite Hle. now left.
    + do 7 right. rewrite (has_n_periods_fun _ _ _ Hn' Hn) in Hk.
      apply in_flat_map.
      exists (f, transition_parameters (latent_of md ++ observed_of md) (fs_transition fs)).
      split; [apply in_map_iff; now exists (f, fs)|].
      apply in_flat_map. exists k. split; [now apply In_drop_last_range|].
      apply in_map_iff. eauto.
Qed.

(** ** Order of the categories *)

Lemma StronglySorted_app {A} (R : A -> A -> Prop) l1 l2 :
  StronglySorted R l1 -> StronglySorted R l2 ->
  (forall x y, In x l1 -> In y l2 -> R x y) -> StronglySorted R (l1 ++ l2).
Proof.
  intros H1 H2 H. induction H1 as [|x l1 Hs IH Hf]; simpl; [exact H2|].
  constructor.
  - apply IH. intros a b Ha Hb. apply H; [now right|exact Hb].
  - apply Forall_app. split; [exact Hf|]. apply Forall_forall. intros y Hy. apply H; [now left|exact Hy].
Qed.

Definition all_cat (c : cat) (l : list label) : Prop := forall lb, In lb l -> lb_cat lb = c.

Lemma all_cat_sorted c l :
  all_cat c l -> StronglySorted (fun a b => cat_rank (lb_cat a) <= cat_rank (lb_cat b)) l.
Proof.
  induction l as [|x l IH]; intros H; constructor.
  - apply IH. intros y Hy. apply H. now right.
  - apply Forall_forall. intros y Hy. rewrite (H x), (H y); [lia|now right|now left].
Qed.

Lemma control_labels_cat cs u : all_cat CControls (control_labels cs u).
Proof.
  intros lb H. apply in_flat_map in H. destruct H as [r [_ H]].
  apply in_map_iff in H. now destruct H as [c [<- _]].
Qed.
Lemma loading_labels_cat fs u : all_cat CLoadings (loading_labels fs u).
Proof.
  intros lb H. apply in_flat_map in H. destruct H as [r [_ H]].
  apply in_flat_map in H. destruct H as [f [_ H]].
  destruct (u_flag r f); [|destruct H]. now destruct H as [<-|[]].
Qed.
Lemma meas_sd_labels_cat u : all_cat CMeasSds (meas_sd_labels u).
Proof. intros lb H. apply in_map_iff in H. now destruct H as [r [<- _]]. Qed.
Lemma shock_sd_labels_cat ps fs : all_cat CShockSds (shock_sd_labels ps fs).
Proof.
  intros lb H. apply in_flat_map in H. destruct H as [r [_ H]].
  apply in_map_iff in H. now destruct H as [c [<- _]].
Qed.
Lemma initial_mean_labels_cat n fs : all_cat CInitStates (initial_mean_labels n fs).
Proof.
  intros lb H. apply in_flat_map in H. destruct H as [r [_ H]].
  apply in_map_iff in H. now destruct H as [c [<- _]].
Qed.
Lemma mixture_weight_labels_cat n : all_cat CMixWeights (mixture_weight_labels n).
Proof. intros lb H. apply in_map_iff in H. now destruct H as [r [<- _]]. Qed.
Lemma initial_chol_labels_cat n fs : all_cat CInitChol (initial_chol_labels n fs).
Proof.
  intros lb H. apply in_flat_map in H. destruct H as [e [_ H]].
  apply in_flat_map in H. destruct H as [r [_ H]].
  apply in_flat_map in H. destruct H as [c [_ H]].
  destruct (fst c <=? fst r); [|destruct H]. now destruct H as [<-|[]].
Qed.
Lemma transition_labels_cat d ps : all_cat CTransition (transition_labels d ps).
Proof.
  intros lb H. apply in_flat_map in H. destruct H as [e [_ H]].
  apply in_flat_map in H. destruct H as [r [_ H]].
  apply in_map_iff in H. now destruct H as [c [<- _]].
Qed.

Create HintDb cats.
#[global] Hint Resolve control_labels_cat loading_labels_cat meas_sd_labels_cat
  shock_sd_labels_cat initial_mean_labels_cat mixture_weight_labels_cat
  initial_chol_labels_cat transition_labels_cat : cats.

Ltac cat_of H :=
  match type of H with
  | In _ (control_labels _ _) => apply control_labels_cat in H
  | In _ (loading_labels _ _) => apply loading_labels_cat in H
  | In _ (meas_sd_labels _) => apply meas_sd_labels_cat in H
  | In _ (shock_sd_labels _ _) => apply shock_sd_labels_cat in H
  | In _ (initial_mean_labels _ _) => apply initial_mean_labels_cat in H
  | In _ (mixture_weight_labels _) => apply mixture_weight_labels_cat in H
  | In _ (initial_chol_labels _ _) => apply initial_chol_labels_cat in H
  | In _ (transition_labels _ _) => apply transition_labels_cat in H
  end.

Lemma params_index_sorted u l d t :
  StronglySorted (fun a b => cat_rank (lb_cat a) <= cat_rank (lb_cat b))
    (get_params_index u l d t).
Proof.
  unfold get_params_index.
  repeat apply StronglySorted_app; try (eapply all_cat_sorted; auto with cats; fail);
    intros x y Hx Hy; rewrite ?in_app_iff in Hy;
    repeat match type of Hy with _ \/ _ => destruct Hy as [Hy|Hy] end;
    cat_of Hx; cat_of Hy; rewrite Hx, Hy; simpl; lia.
Qed.

(** ** No duplicates *)

Lemma NoDup_app_cats c l1 l2 :
  all_cat c l1 -> (forall lb, In lb l2 -> lb_cat lb <> c) -> NoDup l1 -> NoDup l2 ->
  NoDup (l1 ++ l2).
Proof.
  intros H1 H2 Hn1 Hn2. apply NoDup_app_intro; auto.
  intros x Hx Hy. apply (H2 x Hy). now apply H1.
Qed.

Lemma NoDup_enumerate {A} (l : list A) : NoDup (enumerate l).
Proof. apply NoDup_map_inv with (f := fst). rewrite map_fst_enumerate. apply seq_NoDup. Qed.

Lemma NoDup_if_singleton {A B} (c : A -> bool) (g : A -> B) l :
  NoDup l -> (forall x y, In x l -> In y l -> c x = true -> c y = true -> g x = g y -> x = y) ->
  NoDup (flat_map (fun x => if c x then [g x] else []) l).
Proof.
  intros Hnd H. apply NoDup_flat_map; auto.
  - intros x _. destruct (c x); repeat constructor. intros [].
  - intros x y z Hx Hy Hzx Hzy. destruct (c x) eqn:Ex; [|destruct Hzx].
    destruct (c y) eqn:Ey; [|destruct Hzy]. destruct Hzx as [<-|[]].
    destruct Hzy as [E|[]]. symmetry in E. eauto.
Qed.

Lemma mixture_name_inj a b : mixture_name a = mixture_name b -> a = b.
Proof. unfold mixture_name. intros H. apply append_inj_l in H. now apply str_nat_inj. Qed.

Lemma cov_name_inj a b c d :
  without_char "-" a -> without_char "-" c -> cov_name a b = cov_name c d -> a = c /\ b = d.
Proof. unfold cov_name. intros Ha Hc H. now apply (append_split "-") in H. Qed.

Lemma star_name_split a b x y :
  without_char "*" a -> without_char "*" b ->
  (a ++ String " " (String "*" x))%string = (b ++ String " " (String "*" y))%string ->
  a = b /\ x = y.
Proof.
  intros Ha Hb H.
  change (String " " (String "*" x)) with (" " ++ String "*" x)%string in H.
  change (String " " (String "*" y)) with (" " ++ String "*" y)%string in H.
  rewrite <- !append_assoc in H.
  apply append_split in H.
  - destruct H as [H ->]. apply append_inj_r in H. auto.
  - apply without_char_app. split; [exact Ha|]. intros [E|[]]. discriminate.
  - apply without_char_app. split; [exact Hb|]. intros [E|[]]. discriminate.
Qed.

Lemma has_star_not a b : without_char "*" a -> a <> (b ++ String " " (String "*" "* 2"))%string.
Proof.
  intros Ha ->. apply without_char_app in Ha. apply (proj2 Ha). simpl. tauto.
Qed.

Lemma has_star_not2 a b c :
  without_char "*" a -> a <> (b ++ String " " (String "*" (String " " c)))%string.
Proof.
  intros Ha ->. apply without_char_app in Ha. apply (proj2 Ha). simpl. tauto.
Qed.

Lemma In_pairs l a b : In (a, b) (pairs_in_order l) -> In a l /\ In b l.
Proof.
  induction l as [|x l IH]; simpl; [tauto|]. rewrite in_app_iff, in_map_iff.
  intros [[y [[= <- <-] Hy]]|H]; [tauto|]. destruct (IH H). tauto.
Qed.

Lemma NoDup_pairs l : NoDup l -> NoDup (pairs_in_order l).
Proof.
  induction 1 as [|x l Hni Hnd IH]; simpl; [constructor|].
  apply NoDup_app_intro; [|exact IH|].
  - apply NoDup_map_inj; [exact Hnd|]. intros a b _ _ [= E]. exact E.
  - intros [a b] H1 H2. apply in_map_iff in H1. destruct H1 as [y [[= <- <-] _]].
    apply In_pairs in H2. tauto.
Qed.

Lemma NoDup_snoc {A} (l : list A) x : NoDup l -> ~ In x l -> NoDup (l ++ [x]).
Proof.
  intros H Hx. apply NoDup_app_intro; [exact H|repeat constructor; intros []|].
  intros y Hy [<-|[]]. contradiction.
Qed.

Lemma constant_no_star b : "constant" <> (b ++ String " " (String "*" "* 2"))%string.
Proof. apply has_star_not. unfold without_char. simpl. intuition discriminate. Qed.
Lemma constant_no_star2 b c : "constant" <> (b ++ String " " (String "*" (String " " c)))%string.
Proof. apply has_star_not2. unfold without_char. simpl. intuition discriminate. Qed.

Definition clean_factors (all : list string) : Prop :=
  NoDup all /\ forall f, In f all ->
     without_char "*" f /\ ~ In f ["constant"; "phi"; "tfp"] /\
     forall g, f <> ("sigma_" ++ g)%string.

Lemma NoDup_squares all : clean_factors all -> NoDup (map (fun f => f ++ " ** 2")%string all).
Proof.
  intros [Hnd H]. apply NoDup_map_inj; [exact Hnd|]. intros x y _ _ E.
  now apply append_inj_r in E.
Qed.

Lemma NoDup_products all :
  clean_factors all ->
  NoDup (map (fun fg => fst fg ++ " * " ++ snd fg)%string (pairs_in_order all)).
Proof.
  intros [Hnd H]. apply NoDup_map_inj; [now apply NoDup_pairs|].
  intros [a b] [c d] H1 H2 E. apply In_pairs in H1, H2. simpl in E.
  apply star_name_split in E; [|apply H; tauto|apply H; tauto].
  destruct E as [-> E]. congruence.
Qed.

Lemma factor_not_square all f :
  clean_factors all -> In f all -> ~ In f (map (fun f => f ++ " ** 2")%string all).
Proof.
  intros [_ H] Hf Hi. apply in_map_iff in Hi. destruct Hi as [g [E _]]. symmetry in E.
  apply has_star_not in E; [exact E|]. now apply H.
Qed.

Lemma NoDup_transition_parameters all t :
  clean_factors all -> (forall n names, t = TFun n (Some names) -> NoDup names) ->
  NoDup (transition_parameters all t).
Proof.
  intros Hc Hf. pose proof (proj1 Hc) as Hnd. pose proof (proj2 Hc) as H.
  assert (~ In "constant" all) as Hcon by (intros Hi; apply H in Hi; simpl in Hi; tauto).
  assert (~ In "phi" all) as Hphi by (intros Hi; apply H in Hi; simpl in Hi; tauto).
  assert (~ In "tfp" all) as Htfp by (intros Hi; apply H in Hi; simpl in Hi; tauto).
  assert (NoDup (all ++ map (fun f => f ++ " ** 2")%string all
          ++ map (fun fg => fst fg ++ " * " ++ snd fg)%string (pairs_in_order all)
          ++ ["constant"])) as Htl.
  { apply NoDup_app_intro; [exact Hnd| |].
    - apply NoDup_app_intro; [now apply NoDup_squares| |].
      + apply NoDup_snoc; [now apply NoDup_products|].
        intros Hi. apply in_map_iff in Hi. destruct Hi as [fg [E _]]. symmetry in E.
        revert E. apply constant_no_star2.
      + intros x Hx Hy. apply in_map_iff in Hx. destruct Hx as [f [<- Hf']].
        apply in_app_iff in Hy. destruct Hy as [Hy|[E|[]]].
        * apply in_map_iff in Hy. destruct Hy as [[a b] [E Hab]]. apply In_pairs in Hab.
          simpl in E. apply star_name_split in E; [|apply H; tauto|apply H; tauto].
          destruct E as [_ E]. discriminate.
        * revert E. apply constant_no_star.
    - intros x Hx Hy. rewrite !in_app_iff in Hy. destruct Hy as [Hy|[Hy|[<-|[]]]].
      + revert Hy. now apply factor_not_square.
      + apply in_map_iff in Hy. destruct Hy as [fg [E _]]. symmetry in E. revert E.
        apply has_star_not2. now apply H.
      + contradiction. }
  assert (NoDup (all ++ ["constant"])) as Hlin by now apply NoDup_snoc.
  assert (NoDup (all ++ ["phi"])) as Hces by now apply NoDup_snoc.
  assert (NoDup (all ++ map (fun f => f ++ " ** 2")%string all ++ ["constant"])) as Hsq.
  { apply NoDup_app_intro; [exact Hnd| |].
    - apply NoDup_snoc; [now apply NoDup_squares|].
      intros Hi. apply in_map_iff in Hi. destruct Hi as [g [E _]]. symmetry in E.
      revert E. apply constant_no_star.
    - intros x Hx Hy. apply in_app_iff in Hy. destruct Hy as [Hy|[<-|[]]]; [|contradiction].
      revert Hy. now apply factor_not_square. }
  assert (NoDup (all ++ map (fun f => "sigma_" ++ f)%string all ++ ["tfp"])) as Hgen.
  { apply NoDup_app_intro; [exact Hnd| |].
    - apply NoDup_snoc.
      + apply NoDup_map_inj; [exact Hnd|]. intros x y _ _ E. now apply append_inj_l in E.
      + intros Hi. apply in_map_iff in Hi. destruct Hi as [g [E _]]. discriminate.
    - intros x Hx Hy. apply in_app_iff in Hy. destruct Hy as [Hy|[<-|[]]]; [|contradiction].
      apply in_map_iff in Hy. destruct Hy as [g [E _]]. symmetry in E. revert E.
      apply (H x Hx). }
  destruct t as [s|n [names|]|].
  - destruct (string_dec s "linear") as [->|N1]; [exact Hlin|].
    destruct (string_dec s "translog") as [->|N2]; [exact Htl|].
    destruct (string_dec s "robust_translog") as [->|N3]; [exact Htl|].
    destruct (string_dec s "linear_and_squares") as [->|N4]; [exact Hsq|].
    destruct (string_dec s "log_ces") as [->|N5]; [exact Hces|].
    destruct (string_dec s "log_ces_general") as [->|N6]; [exact Hgen|].
    unfold transition_parameters.
    repeat match goal with
           | |- NoDup (match ?x with _ => _ end) => destruct x; try constructor; try congruence
           end.
  - eapply Hf. reflexivity.
  - constructor.
  - constructor.
Qed.

Lemma NoDup_u_keys_rows u : NoDup (map u_key u) -> NoDup u.
Proof. apply NoDup_map_inv. Qed.

Lemma u_key_inj u r s : NoDup (map u_key u) -> In r u -> In s u -> u_key r = u_key s -> r = s.
Proof.
  induction u as [|x u IH]; simpl; [tauto|]. intros Hnd Hr Hs E.
  inversion Hnd as [|? ? Hni Hnd']; subst.
  destruct Hr as [->|Hr], Hs as [->|Hs]; auto.
  - exfalso. apply Hni. rewrite E. now apply in_map.
  - exfalso. apply Hni. rewrite <- E. now apply in_map.
Qed.

Lemma NoDup_params_index_gen u l d t :
  NoDup (map u_key u) -> NoDup (l_controls l) -> NoDup (l_latent l) -> NoDup (l_periods l) ->
  (forall f, In f (l_latent l) -> without_char "-" f) ->
  NoDup (dkeys (t_param_names t)) ->
  (forall f ns, In (f, ns) (t_param_names t) -> NoDup ns) ->
  NoDup (get_params_index u l d t).
Proof.
  intros Hu Hc Hl Hp Hdash Htk Htn. unfold get_params_index.
  assert (NoDup (drop_last (l_periods l))) as Hdl.
  { unfold drop_last. destruct (l_periods l) as [|x ps] eqn:E; [constructor|].
    rewrite <- E in *. rewrite (app_removelast_last x) in Hp by congruence.
    apply NoDup_remove_1 in Hp. now rewrite app_nil_r in Hp. }
  assert (NoDup (control_labels (l_controls l) u)) as H1.
  { apply NoDup_flat_map; [now apply NoDup_u_keys_rows| |].
    - intros r _. apply NoDup_map_inj; [exact Hc|]. intros x y _ _ [= E]. exact E.
    - intros r s lb Hr Hs Hb Hb'. apply in_map_iff in Hb, Hb'.
      destruct Hb as [c [<- _]], Hb' as [c' [E _]]. injection E as E1 E2 E3.
      apply (u_key_inj u); auto. unfold u_key. congruence. }
  assert (NoDup (loading_labels (l_latent l) u)) as H2.
  { apply NoDup_flat_map; [now apply NoDup_u_keys_rows| |].
    - intros r _. apply NoDup_if_singleton; [exact Hl|]. intros x y _ _ _ _ [= E]. exact E.
    - intros r s lb Hr Hs Hb Hb'. apply in_flat_map in Hb, Hb'.
      destruct Hb as [f [_ Hb]], Hb' as [f' [_ Hb']].
      destruct (u_flag r f); [|destruct Hb]. destruct (u_flag s f'); [|destruct Hb'].
      destruct Hb as [<-|[]]. destruct Hb' as [E|[]]. injection E as E1 E2 E3.
      apply (u_key_inj u); auto. unfold u_key. congruence. }
  assert (NoDup (meas_sd_labels u)) as H3.
  { apply NoDup_map_inj; [now apply NoDup_u_keys_rows|]. intros r s Hr Hs [= E1 E2].
    apply (u_key_inj u); auto. unfold u_key. congruence. }
  assert (NoDup (shock_sd_labels (l_periods l) (l_latent l))) as H4.
  { apply NoDup_flat_map; [exact Hdl| |].
    - intros q _. apply NoDup_map_inj; [exact Hl|]. intros x y _ _ [= E]. exact E.
    - intros x y lb _ _ Hb Hb'. apply in_map_iff in Hb, Hb'.
      destruct Hb as [c [<- _]], Hb' as [c' [E _]]. congruence. }
  assert (NoDup (initial_mean_labels (n_mixtures d) (l_latent l))) as H5.
  { apply NoDup_flat_map; [apply NoDup_range| |].
    - intros q _. apply NoDup_map_inj; [exact Hl|]. intros x y _ _ [= E]. exact E.
    - intros x y lb _ _ Hb Hb'. apply in_map_iff in Hb, Hb'.
      destruct Hb as [c [<- _]], Hb' as [c' [E _]].
      assert (mixture_name y = mixture_name x) as E' by congruence.
      symmetry. now apply mixture_name_inj. }
  assert (NoDup (mixture_weight_labels (n_mixtures d))) as H6.
  { apply NoDup_map_inj; [apply NoDup_range|]. intros x y _ _ E.
    assert (mixture_name x = mixture_name y) by congruence. now apply mixture_name_inj. }
  assert (NoDup (initial_chol_labels (n_mixtures d) (l_latent l))) as H7.
  { assert (forall r f, In (r, f) (enumerate (l_latent l)) -> In f (l_latent l)) as Hin.
    { intros r f Hrf. apply In_enumerate in Hrf. eapply nth_error_In; eauto. }
    assert (forall r f r', In (r, f) (enumerate (l_latent l)) ->
                           In (r', f) (enumerate (l_latent l)) -> r = r') as Hpos.
    { intros r f r' Hr Hr'. apply In_enumerate in Hr, Hr'.
      apply (proj1 (NoDup_nth_error _) Hl).
      - apply nth_error_Some. congruence.
      - congruence. }
    apply NoDup_flat_map; [apply NoDup_range| |].
    - intros e _. apply NoDup_flat_map; [apply NoDup_enumerate| |].
      + intros [r fr] Hr. apply NoDup_if_singleton; [apply NoDup_enumerate|].
        intros [c fc] [c' fc'] Hc1 Hc2 _ _ E. simpl in E.
        assert (cov_name fr fc = cov_name fr fc') as E' by congruence.
        apply cov_name_inj in E'; try (apply Hdash; eauto).
        destruct E' as [_ ->]. f_equal. eauto.
      + intros [r fr] [r' fr'] lb Hr Hr' Hb Hb'. apply in_flat_map in Hb, Hb'.
        destruct Hb as [[c fc] [Hcc Hb]], Hb' as [[c' fc'] [Hcc' Hb']]. simpl in Hb, Hb'.
        destruct (c <=? r); [|destruct Hb]. destruct (c' <=? r'); [|destruct Hb'].
        destruct Hb as [<-|[]]. destruct Hb' as [E|[]].
        assert (cov_name fr' fc' = cov_name fr fc) as E' by congruence.
        apply cov_name_inj in E'; try (apply Hdash; eauto).
        destruct E' as [-> ->]. f_equal. eauto.
    - intros x y lb _ _ Hb Hb'. apply in_flat_map in Hb, Hb'.
      destruct Hb as [rf [_ Hb]], Hb' as [rf' [_ Hb']]. apply in_flat_map in Hb, Hb'.
      destruct Hb as [cf [_ Hb]], Hb' as [cf' [_ Hb']].
      destruct (fst cf <=? fst rf); [|destruct Hb]. destruct (fst cf' <=? fst rf'); [|destruct Hb'].
      destruct Hb as [<-|[]]. destruct Hb' as [E|[]].
      assert (mixture_name y = mixture_name x) as E' by congruence.
      symmetry. now apply mixture_name_inj. }
  assert (NoDup (transition_labels (t_param_names t) (l_periods l))) as H8.
  { apply NoDup_flat_map.
    - apply NoDup_map_inv with (f := fst). exact Htk.
    - intros [f ns] Hf. apply NoDup_flat_map; [exact Hdl| |].
      + intros q _. apply NoDup_map_inj; [eapply Htn; eauto|]. intros x y _ _ [= E]. exact E.
      + intros x y lb _ _ Hb Hb'. apply in_map_iff in Hb, Hb'.
        destruct Hb as [c [<- _]], Hb' as [c' [E _]]. congruence.
    - intros [f ns] [f' ns'] lb Hf Hf' Hb Hb'. apply in_flat_map in Hb, Hb'.
      destruct Hb as [q [_ Hb]], Hb' as [q' [_ Hb']]. apply in_map_iff in Hb, Hb'.
      destruct Hb as [c [<- _]], Hb' as [c' [E _]]. simpl in E.
      assert (f' = f) as -> by congruence.
      apply (In_dget _ _ _ Htk) in Hf, Hf'. congruence. }
  repeat (eapply NoDup_app_cats; [solve [eauto with cats] | |assumption|]); try assumption;
    intros lb Hy; rewrite ?in_app_iff in Hy;
    repeat match type of Hy with _ \/ _ => destruct Hy as [Hy|Hy] end;
    cat_of Hy; rewrite Hy; discriminate.
Qed.

Lemma NoDup_app_l {A} (l1 l2 : list A) : NoDup (l1 ++ l2) -> NoDup l1.
Proof.
  induction l1 as [|x l1 IH]; simpl; intros H; [constructor|].
  inversion H as [|? ? Hni Hnd]; subst. constructor; [|auto].
  intros Hx. apply Hni. apply in_app_iff. now left.
Qed.

Lemma NoDup_params_index md p :
  wf_dicts md -> good_names md -> process_model md = Ok p -> NoDup (params_index_of p).
Proof.
  intros Hwf [Hnd [Hdash [Hstar [Hc [Hcon Hfun]]]]] Hp.
  destruct (p_labels_eq md p Hp) as [El [Eo [Ec [Ep _]]]].
  destruct (process_tinfo md p Hwf Hp) as [Et _].
  apply NoDup_params_index_gen.
  - destruct (process_update_table md p Hwf Hp) as [-> _]. apply NoDup_table_keys.
  - rewrite Ec. now constructor.
  - rewrite El. now apply NoDup_app_l in Hnd.
  - rewrite Ep. apply NoDup_range.
  - now rewrite El.
  - rewrite Et. unfold dkeys. rewrite map_map. simpl. apply Hwf.
  - rewrite Et. intros f ns Hin. apply in_map_iff in Hin.
    destruct Hin as [[f' fs] [[= <- <-] Hin]].
    apply NoDup_transition_parameters; [split; assumption|].
    intros n names E. eapply Hfun; eauto.
Qed.
