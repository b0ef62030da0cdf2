(** Names are only names (C114). *)
Require Import Reals Qreals Lra String Arith ZArith Bool List Lia FunctionalExtensionality.
From Verif Require Import PyBase ListFacts StringFacts ModelSpec ProcessModel CheckModel SpecModel ProcessModelFacts
  SpecParse SpecIndex IndexFacts SpecFacts ParamsIndex ParseParams ParseFacts AnchorFacts PropsParse ProcessData SpecData DataArrays DataFacts PropsData
  RSum Kalman PropsKalman Likelihood SpecLikelihood ScheduleFacts LikelihoodRun PropsFiltered SpecModelDensity
  LikelihoodFacts ExampleModels PropsSpec PropsLikelihood QRWitness PropsNumerics Renormalization PropsRenormalization
  TransitionFunctions TransitionFacts SpecTransition PropsTransition
  Utilities SpecUtilities UtilitiesFacts ParamsVec ModelInputs Runs Related PropsPrefix PropsRemoved PropsControls
  SpecRenaming RenamingFacts.
Import ListNotations.
Open Scope R_scope.

Lemma map_at_same {A B C} (f : A -> C) (g : B -> C) l l' : length l = length l' ->
  (forall x x', at_same l l' x x' -> f x = g x') -> map f l = map g l'.
Proof.
  revert l'. induction l as [|a l IH]; intros [|b l'] El Hs; try discriminate; [reflexivity|]. cbn [map]. f_equal.
  - apply Hs. now exists O.
  - apply IH; [now injection El|]. intros x x' (i & A1 & A2). apply Hs. now exists (S i).
Qed.

Lemma pairs_length (rho : string -> string) l : length (pairs_in_order (map rho l)) = length (pairs_in_order l).
Proof. induction l as [|x l IH]; [reflexivity|]. cbn [map pairs_in_order]. rewrite !app_length, !map_length. now rewrite IH. Qed.

Lemma parameters_length rho all t : valid_transition t ->
  length (transition_parameters all t) = length (transition_parameters (map rho all) t).
Proof.
  intros [(s & -> & Hs)|(x & ns & ->)]; [|reflexivity]. unfold known_transition_functions in Hs.
  repeat (destruct Hs as [<-|Hs]; [cbn [transition_parameters]; rewrite ?app_length, ?map_length, ?pairs_length; reflexivity|]). destruct Hs.
Qed.

Lemma val_of_ok idx params : NoDup idx -> length params = length idx -> parameter_values idx params (val_of 0 idx params).
Proof.
  intros Hnd Hl. pose proof (val_of_map 0 idx params Hnd Hl) as E.
  pose proof (values_ok idx (val_of 0 idx params) Hnd) as V. now rewrite <- E in V.
Qed.

Lemma Forall2_nth_error {A B} (P : A -> B -> Prop) l l' i x : Forall2 P l l' -> nth_error l i = Some x ->
  exists y, nth_error l' i = Some y /\ P x y.
Proof.
  intros F. revert i. induction F as [|a b l l' Hab _ IH]; intros [|i] E; try discriminate; [|now apply IH].
  injection E as ->. now exists b.
Qed.

Lemma enumerate_map {A B} (f : A -> B) l : enumerate (map f l) = map (fun ix => (fst ix, f (snd ix))) (enumerate l).
Proof.
  unfold enumerate. rewrite map_length. generalize (seq 0 (length l)) as ns. induction l as [|x l IH]; intros [|k ns]; try reflexivity.
  cbn [map combine fst snd]. now rewrite IH.
Qed.

Lemma dget_renamed {A B} (rho : string -> string) (g : A -> B) (d : dict A) k : (forall x y, rho x = rho y -> x = y) ->
  dget (map (fun kv => (rho (fst kv), g (snd kv))) d) (rho k) = option_map g (dget d k).
Proof.
  intros inj. induction d as [|[h x] d IH]; [reflexivity|]. cbn [map dget fst snd].
  destruct (String.eqb k h) eqn:E.
  - apply String.eqb_eq in E. subst h. now rewrite String.eqb_refl.
  - destruct (String.eqb (rho k) (rho h)) eqn:E'; [|exact IH]. apply String.eqb_eq in E'. apply inj in E'. subst h.
    now rewrite String.eqb_refl in E.
Qed.

Section Index.
  Variables (rho : string -> string) (md : model_dict) (p : processed) (n : nat) (p' : processed).
  Hypothesis Hrho : is_renaming rho.
  Let md' := rename_model rho md.
  Hypothesis Hwf : wf_dicts md.
  Hypothesis Hp : process_model md = Ok p.
  Hypothesis Hn : has_n_periods md n.
  Hypothesis Hwf' : wf_dicts md'.
  Hypothesis Hp' : process_model md' = Ok p'.
  Hypothesis Hn' : has_n_periods md' n.
  Hypothesis Hclean : clean_anchoring md.
  Hypothesis Hclean' : clean_anchoring md'.
  Let idx := params_index_of p.
  Let idx' := params_index_of p'.

  Let new := new_name rho md.

  Definition same_row (r r' : urow) : Prop :=
    In r (p_update p) /\ In r' (p_update p') /\ u_period r' = u_period r /\ u_var r' = new (u_var r) /\
    forall f, u_flag r' (rho f) = u_flag r f.

  Lemma rows_same : Forall2 same_row (p_update p) (p_update p').
  Proof.
    pose proof (equations_renamed rho md n Hrho Hclean Hclean') as E. fold md' in E.
    pose proof (equations_update md p n Hwf Hp Hn) as Eu. rewrite (equations_update md' p' n Hwf' Hp' Hn'), Eu in E.
    assert (Inc : incl (p_update p) (p_update p)) by apply incl_refl.
    assert (Inc' : incl (p_update p') (p_update p')) by apply incl_refl.
    revert Inc Inc' E. generalize (p_update p) at 1 3 4 as u. generalize (p_update p') at 1 3 4 as u'.
    intros u' u. revert u'. induction u as [|r u IH]; intros [|r' u'] Inc Inc' E; try discriminate; constructor.
    - injection E as E1 E2 _. assert (Hr : In r (p_update p)) by (apply Inc; now left).
      assert (Hr' : In r' (p_update p')) by (apply Inc'; now left).
      assert (He : In (u_period r, u_var r) (equations md n)) by (rewrite Eu; exact (in_map u_key _ _ Hr)).
      split; [exact Hr|]. split; [exact Hr'|]. split; [exact E1|]. split; [exact E2|].
      intros f. pose proof (p_update_flag md p r f Hwf Hp Hr) as F. pose proof (p_update_flag md' p' r' (rho f) Hwf' Hp' Hr') as F'.
      pose proof (involves_renamed rho md n Hrho Hclean Hclean' Hn Hn' _ _ f He) as I. fold md' new in I. cbn [rename_equation u_key fst snd] in E1, E2. fold new in E2.
      rewrite E1, E2 in F'.
      assert (G : u_flag r' (rho f) = true <-> u_flag r f = true) by (rewrite F, F'; symmetry; exact I).
      destruct (u_flag r' (rho f)), (u_flag r f); try reflexivity; [symmetry|]; now apply G.
    - injection E as _ _ E. apply IH; [|now intros x Hx; apply Inc'; right|exact E]. intros x Hx. apply Inc. now right.
  Qed.

  Let L1 : l_latent (p_labels p) = latent_of md. Proof. apply (p_labels_eq md p Hp). Qed.
  Let L1' : l_latent (p_labels p') = map rho (latent_of md).
  Proof. rewrite <- (renamed_latent rho md). apply (p_labels_eq md' p' Hp'). Qed.
  Let L2 : l_controls (p_labels p) = "constant"%string :: controls_of md. Proof. apply (p_labels_eq md p Hp). Qed.
  Let L2' : l_controls (p_labels p') = map rho ("constant"%string :: controls_of md).
  Proof. cbn [map]. rewrite (proj2 Hrho), <- (renamed_controls rho md). apply (p_labels_eq md' p' Hp'). Qed.
  Let L3 : l_periods (p_labels p) = range n.
  Proof. destruct (p_labels_eq md p Hp) as (_ & _ & _ & -> & _). now rewrite (PropsParse.n_eq md p n Hp Hn). Qed.
  Let L3' : l_periods (p_labels p') = range n.
  Proof. destruct (p_labels_eq md' p' Hp') as (_ & _ & _ & -> & _). now rewrite (PropsParse.n_eq md' p' n Hp' Hn'). Qed.
  Let L4 : n_mixtures (p_dims p) = n_mixtures_of md. Proof. apply (p_dims_eq md p Hp). Qed.
  Let L4' : n_mixtures (p_dims p') = n_mixtures_of md. Proof. apply (p_dims_eq md' p' Hp'). Qed.

  (** The eight blocks of the index. *)
  Let A1 := control_labels ("constant"%string :: controls_of md) (p_update p).
  Let A2 := loading_labels (latent_of md) (p_update p).
  Let A3 := meas_sd_labels (p_update p).
  Let A4 := shock_sd_labels (range n) (latent_of md).
  Let A5 := initial_mean_labels (n_mixtures_of md) (latent_of md).
  Let A6 := mixture_weight_labels (n_mixtures_of md).
  Let A7 := initial_chol_labels (n_mixtures_of md) (latent_of md).
  Let A8 := transition_labels (t_param_names (p_tinfo p)) (range n).
  Let B1 := control_labels (map rho ("constant"%string :: controls_of md)) (p_update p').
  Let B2 := loading_labels (map rho (latent_of md)) (p_update p').
  Let B3 := meas_sd_labels (p_update p').
  Let B4 := shock_sd_labels (range n) (map rho (latent_of md)).
  Let B5 := initial_mean_labels (n_mixtures_of md) (map rho (latent_of md)).
  Let B6 := mixture_weight_labels (n_mixtures_of md).
  Let B7 := initial_chol_labels (n_mixtures_of md) (map rho (latent_of md)).
  Let B8 := transition_labels (t_param_names (p_tinfo p')) (range n).

  Lemma idx_blocks : idx = A1 ++ A2 ++ A3 ++ A4 ++ A5 ++ A6 ++ A7 ++ A8.
  Proof. unfold idx, params_index_of, get_params_index. now rewrite L1, L2, L3, L4. Qed.
  Lemma idx_blocks' : idx' = B1 ++ B2 ++ B3 ++ B4 ++ B5 ++ B6 ++ B7 ++ B8.
  Proof. unfold idx', params_index_of, get_params_index. now rewrite L1', L2', L3', L4'. Qed.

  Lemma Forall2_weaken {A B} (P Q : A -> B -> Prop) l l' : (forall a b, P a b -> Q a b) -> Forall2 P l l' -> Forall2 Q l l'.
  Proof. intros HQ. induction 1; constructor; auto. Qed.

  Lemma Forall2_map_r {A B} (P : A -> B -> Prop) (g : A -> B) l : (forall x, In x l -> P x (g x)) -> Forall2 P l (map g l).
  Proof. induction l as [|a l IH]; intros HP; constructor; [apply HP; now left|]. apply IH. intros x Hx. apply HP. now right. Qed.

  Lemma loading_row r r' : same_row r r' ->
    Forall2 (fun f g => length (if u_flag r f then [(CLoadings, u_period r, u_var r, f)] else [])
                      = length (if u_flag r' g then [(CLoadings, u_period r', u_var r', g)] else [])) (latent_of md) (map rho (latent_of md)).
  Proof. intros (_ & _ & _ & _ & Hf). apply Forall2_map_r. intros f _. rewrite Hf. now destruct (u_flag r f). Qed.

  Lemma N1 : length A1 = length B1.
  Proof.
    apply flat_map_lengths. eapply Forall2_weaken; [|exact rows_same]. intros r r' _. cbn beta. now rewrite !map_length.
  Qed.
  Lemma N2 : length A2 = length B2.
  Proof.
    apply flat_map_lengths. eapply Forall2_weaken; [|exact rows_same]. intros r r' Hr. cbn beta. apply flat_map_lengths. now apply loading_row.
  Qed.
  Lemma N3 : length A3 = length B3.
  Proof. unfold A3, B3, meas_sd_labels. rewrite !map_length. pose proof rows_same as R. now induction R; cbn [length]; congruence. Qed.
  Lemma N4 : length A4 = length B4.
  Proof. apply flat_map_lengths. apply Forall2_diag. intros t _. now rewrite !map_length. Qed.
  Lemma N5 : length A5 = length B5.
  Proof. apply flat_map_lengths. apply Forall2_diag. intros t _. now rewrite !map_length. Qed.
  Lemma chol_row e rf : Forall2 (fun cf cg => length (if (fst cf <=? fst rf)%nat then [(CInitChol, O, mixture_name e, cov_name (snd rf) (snd cf))] else [])
      = length (if (fst cg <=? fst rf)%nat then [(CInitChol, O, mixture_name e, cov_name (rho (snd rf)) (snd cg))] else []))
    (enumerate (latent_of md)) (enumerate (map rho (latent_of md))).
  Proof. rewrite enumerate_map. apply Forall2_map_r. intros cf _. cbn [fst]. now destruct (fst cf <=? fst rf)%nat. Qed.
  Lemma chol_rows e : Forall2 (fun rf rg : nat * string =>
      length (flat_map (fun cf => if (fst cf <=? fst rf)%nat then [(CInitChol, O, mixture_name e, cov_name (snd rf) (snd cf))] else []) (enumerate (latent_of md)))
      = length (flat_map (fun cf => if (fst cf <=? fst rg)%nat then [(CInitChol, O, mixture_name e, cov_name (snd rg) (snd cf))] else []) (enumerate (map rho (latent_of md)))))
    (enumerate (latent_of md)) (enumerate (map rho (latent_of md))).
  Proof.
    refine (eq_ind_r (fun l => Forall2 _ (enumerate (latent_of md)) l) _ (enumerate_map rho (latent_of md))). apply Forall2_map_r. intros rf _. cbn [fst snd].
    apply flat_map_lengths. apply chol_row.
  Qed.
  Lemma N7 : length A7 = length B7.
  Proof. apply flat_map_lengths. apply Forall2_diag. intros e _. apply flat_map_lengths. apply chol_rows. Qed.

  Lemma pos_control t v c : In (t, v) (equations md n) -> In c ("constant"%string :: controls_of md) ->
    at_same idx idx' (CControls, t, v, c) (CControls, t, new v, rho c).
  Proof.
    intros Hv Hc. rewrite idx_blocks, idx_blocks'. apply at_same_l.
    rewrite (equations_update md p n Hwf Hp Hn) in Hv. apply in_map_iff in Hv as (r & [= <- <-] & Hr).
    apply In_nth_error in Hr as [i Hi]. destruct (Forall2_nth_error _ _ _ _ _ rows_same Hi) as (r' & Hi' & Hrr).
    apply (at_same_flat _ _ _ _ r r').
    - eapply Forall2_weaken; [|exact rows_same]. intros a b _. cbn beta. now rewrite !map_length.
    - now exists i.
    - destruct Hrr as (_ & _ & -> & -> & _). rewrite map_map.
      exact (at_same_map (fun c => (CControls, u_period r, u_var r, c)) (fun c => (CControls, u_period r, new (u_var r), rho c)) _ c Hc).
  Qed.

  Lemma pos_sd t v : In (t, v) (equations md n) -> at_same idx idx' (CMeasSds, t, v, "-"%string) (CMeasSds, t, new v, "-"%string).
  Proof.
    intros Hv. rewrite idx_blocks, idx_blocks'.
    apply at_same_r; [exact N1|]. apply at_same_r; [exact N2|]. apply at_same_l.
    rewrite (equations_update md p n Hwf Hp Hn) in Hv. apply in_map_iff in Hv as (r & [= <- <-] & Hr).
    apply In_nth_error in Hr as [i Hi]. destruct (Forall2_nth_error _ _ _ _ _ rows_same Hi) as (r' & Hi' & Hrr).
    exists i. unfold A3, B3, meas_sd_labels. rewrite !nth_error_map, Hi, Hi'. cbn [option_map].
    destruct Hrr as (_ & _ & -> & -> & _). now split.
  Qed.

  Lemma pos_loading t v f : In (t, v) (equations md n) -> In f (latent_of md) ->
    at_same idx idx' (CLoadings, t, v, f) (CLoadings, t, new v, rho f) \/
    (~ In (CLoadings, t, v, f) idx /\ ~ In (CLoadings, t, new v, rho f) idx').
  Proof.
    intros Hv Hf.
    pose proof Hv as He. rewrite (equations_update md p n Hwf Hp Hn) in Hv. apply in_map_iff in Hv as (r & [= <- <-] & Hr).
    apply In_nth_error in Hr as [i Hi]. destruct (Forall2_nth_error _ _ _ _ _ rows_same Hi) as (r' & Hi' & Hrr).
    destruct (u_flag r f) eqn:Ef.
    - left. rewrite idx_blocks, idx_blocks'. apply at_same_r; [exact N1|]. apply at_same_l.
      apply (at_same_flat _ _ _ _ r r').
      + eapply Forall2_weaken; [|exact rows_same]. intros a b Hab. cbn beta. apply flat_map_lengths. now apply loading_row.
      + now exists i.
      + apply (at_same_flat _ _ _ _ f (rho f)); [now apply loading_row| |].
        * apply In_nth_error in Hf as [j Hj]. exists j. split; [exact Hj|]. now apply map_nth_error.
        * destruct Hrr as (_ & _ & -> & -> & ->). rewrite Ef. now exists O.
    - right. split.
      + intros F. apply (In_params_index md p _ Hwf Hp) in F. inversion F as [|? ? ? Hi2 _| | | | | |]; subst.
        apply (p_update_flag md p r f Hwf Hp (nth_error_In _ _ Hi)) in Hi2. congruence.
      + intros F. apply (In_params_index md' p' _ Hwf' Hp') in F. inversion F as [|? ? ? Hi2 _| | | | | |]; subst.
        apply (involves_renamed rho md n Hrho Hclean Hclean' Hn Hn' _ _ f He) in Hi2.
        apply (p_update_flag md p r f Hwf Hp (nth_error_In _ _ Hi)) in Hi2. congruence.
  Qed.

  Lemma periods_but_last t : (t + 1 < n)%nat -> In t (drop_last (range n)).
  Proof.
    intros Ht. unfold drop_last, range. destruct n as [|m]; [lia|]. rewrite seq_S. cbn [plus].
    rewrite removelast_last. apply in_seq. lia.
  Qed.

  Lemma pos_shock t f : (t + 1 < n)%nat -> In f (latent_of md) ->
    at_same idx idx' (CShockSds, t, f, "-"%string) (CShockSds, t, rho f, "-"%string).
  Proof.
    intros Ht Hf. rewrite idx_blocks, idx_blocks'.
    apply at_same_r; [exact N1|]. apply at_same_r; [exact N2|]. apply at_same_r; [exact N3|]. apply at_same_l.
    apply (at_same_flat _ _ _ _ t t).
    - apply Forall2_diag. intros s _. now rewrite !map_length.
    - apply at_same_eq. now apply periods_but_last.
    - rewrite map_map. exact (at_same_map (fun f => (CShockSds, t, f, "-"%string)) (fun f => (CShockSds, t, rho f, "-"%string)) _ f Hf).
  Qed.

  Lemma pos_mean e f : (e < n_mixtures_of md)%nat -> In f (latent_of md) ->
    at_same idx idx' (CInitStates, O, mixture_name e, f) (CInitStates, O, mixture_name e, rho f).
  Proof.
    intros He Hf. rewrite idx_blocks, idx_blocks'.
    apply at_same_r; [exact N1|]. apply at_same_r; [exact N2|]. apply at_same_r; [exact N3|]. apply at_same_r; [exact N4|]. apply at_same_l.
    apply (at_same_flat _ _ _ _ e e).
    - apply Forall2_diag. intros s _. now rewrite !map_length.
    - apply at_same_eq. unfold range. apply in_seq. lia.
    - rewrite map_map. exact (at_same_map (fun f => (CInitStates, O, mixture_name e, f)) (fun f => (CInitStates, O, mixture_name e, rho f)) _ f Hf).
  Qed.

  Lemma pos_weight e : (e < n_mixtures_of md)%nat ->
    at_same idx idx' (CMixWeights, O, mixture_name e, "-"%string) (CMixWeights, O, mixture_name e, "-"%string).
  Proof.
    intros He. rewrite idx_blocks, idx_blocks'.
    apply at_same_r; [exact N1|]. apply at_same_r; [exact N2|]. apply at_same_r; [exact N3|]. apply at_same_r; [exact N4|].
    apply at_same_r; [exact N5|]. apply at_same_l. apply at_same_eq.
    apply (in_map (fun e => (CMixWeights, O, mixture_name e, "-"%string)) (range (n_mixtures_of md)) e). unfold range. apply in_seq. lia.
  Qed.

  Lemma pos_chol e r c fr fc : (e < n_mixtures_of md)%nat -> nth_error (latent_of md) r = Some fr -> nth_error (latent_of md) c = Some fc ->
    (c <= r)%nat -> at_same idx idx' (CInitChol, O, mixture_name e, cov_name fr fc) (CInitChol, O, mixture_name e, cov_name (rho fr) (rho fc)).
  Proof.
    intros He Hr Hc Hle. rewrite idx_blocks, idx_blocks'.
    apply at_same_r; [exact N1|]. apply at_same_r; [exact N2|]. apply at_same_r; [exact N3|]. apply at_same_r; [exact N4|].
    apply at_same_r; [exact N5|]. apply at_same_r; [reflexivity|]. apply at_same_l.
    assert (En : forall k f, nth_error (latent_of md) k = Some f ->
      at_same (enumerate (latent_of md)) (enumerate (map rho (latent_of md))) (k, f) (k, rho f)).
    { intros k f Hk. rewrite enumerate_map. exists k.
      assert (E : nth_error (enumerate (latent_of md)) k = Some (k, f)).
      { unfold enumerate. revert Hk. generalize (latent_of md) as l. intros l Hk.
        assert (Hkl : (k < length l)%nat) by (apply nth_error_Some; congruence).
        replace (Some (k, f)) with (Some ((0 + k)%nat, f)) by reflexivity. revert Hk Hkl. generalize O as s. revert k.
        induction l as [|a l IH]; intros [|k] s Hk Hkl; cbn [length] in Hkl; try lia; cbn [length seq combine nth_error] in *.
        - injection Hk as ->. now rewrite Nat.add_0_r.
        - rewrite (IH k (S s) Hk) by lia. do 2 f_equal. lia. }
      split; [exact E|]. exact (map_nth_error (fun ix => (fst ix, rho (snd ix))) _ _ E). }
    apply (at_same_flat _ _ _ _ e e).
    - apply Forall2_diag. intros s _. apply flat_map_lengths. apply chol_rows.
    - apply at_same_eq. unfold range. apply in_seq. lia.
    - apply (at_same_flat _ _ _ _ (r, fr) (r, rho fr)); [apply chol_rows|now apply En|].
      apply (at_same_flat _ _ _ _ (c, fc) (c, rho fc)); [exact (chol_row e (r, fr))|now apply En|].
      cbn [fst snd]. rewrite (proj2 (Nat.leb_le c r) Hle). now exists O.
  Qed.

  Let all := latent_of md ++ observed_of md.

  Lemma all_renamed : latent_of md' ++ observed_of md' = map rho all.
  Proof. unfold all. rewrite map_app. now rewrite <- (renamed_latent rho md), <- (renamed_observed rho md). Qed.

  Lemma spec_ok f fs : In (f, fs) (md_factors md) -> valid_transition (fs_transition fs).
  Proof. apply (spec_valid md p Hwf Hp). Qed.

  Lemma names_eq : t_param_names (p_tinfo p) = map (fun ffs => (fst ffs, transition_parameters all (fs_transition (snd ffs)))) (md_factors md).
  Proof. apply (process_tinfo md p Hwf Hp). Qed.

  Lemma names_eq' : t_param_names (p_tinfo p') = map (fun ffs => (rho (fst ffs), transition_parameters (map rho all) (fs_transition (snd ffs)))) (md_factors md).
  Proof. destruct (process_tinfo md' p' Hwf' Hp') as [-> _]. rewrite all_renamed. unfold md', rename_model. cbn [md_factors]. now rewrite map_map. Qed.

  Lemma names_lengths ffs : In ffs (md_factors md) ->
      Forall2 (fun s s' : nat => length (map (fun m => (CTransition, s, fst ffs, m)) (transition_parameters all (fs_transition (snd ffs))))
        = length (map (fun m => (CTransition, s', rho (fst ffs), m)) (transition_parameters (map rho all) (fs_transition (snd ffs)))))
        (drop_last (range n)) (drop_last (range n)).
  Proof.
    destruct ffs as [g gs]. intros Hg2. apply Forall2_diag. intros s _. rewrite !map_length. apply parameters_length. now apply (spec_ok g).
  Qed.

  Lemma pos_transition t f fs x x' : (t + 1 < n)%nat -> In (f, fs) (md_factors md) ->
    at_same (transition_parameters all (fs_transition fs)) (transition_parameters (map rho all) (fs_transition fs)) x x' ->
    at_same idx idx' (CTransition, t, f, x) (CTransition, t, rho f, x').
  Proof.
    intros Ht Hf Hx. rewrite idx_blocks, idx_blocks'.
    apply at_same_r; [exact N1|]. apply at_same_r; [exact N2|]. apply at_same_r; [exact N3|]. apply at_same_r; [exact N4|].
    apply at_same_r; [exact N5|]. apply at_same_r; [reflexivity|]. apply at_same_r; [exact N7|].
    unfold A8, B8, transition_labels. rewrite names_eq, names_eq'.
    apply (at_same_flat _ _ _ _ (f, transition_parameters all (fs_transition fs)) (rho f, transition_parameters (map rho all) (fs_transition fs))).
    - apply Forall2_maps. intros ffs Hin. cbn [fst snd]. apply flat_map_lengths. now apply names_lengths.
    - exact (at_same_map (fun ffs => (fst ffs, transition_parameters all (fs_transition (snd ffs))))
        (fun ffs => (rho (fst ffs), transition_parameters (map rho all) (fs_transition (snd ffs)))) _ (f, fs) Hf).
    - cbn [fst snd]. apply (at_same_flat _ _ _ _ t t); [exact (names_lengths (f, fs) Hf)| |].
      + apply at_same_eq. now apply periods_but_last.
      + destruct Hx as (i & X1 & X2). exists i. split; now apply map_nth_error.
  Qed.


  Lemma renamed_index_length : length idx = length idx'.
  Proof.
    assert (N8 : length A8 = length B8).
    { unfold A8, B8, transition_labels. rewrite names_eq, names_eq'. apply flat_map_lengths. apply Forall2_maps. intros ffs Hin. cbn [fst snd].
      apply flat_map_lengths. now apply names_lengths. }
    rewrite idx_blocks, idx_blocks', !app_length, N1, N2, N3, N4, N5, N7, N8. reflexivity.
  Qed.
End Index.

Section Run.
  Variables (qr : qr_function) (nan neg_inf : R).
  Variables custom custom' : string -> dict R -> dict R -> list R -> result R.
  Variables (rho : string -> string) (md : model_dict) (p : processed) (n : nat) (df : frame R) (ids lv : list Z) (ar : arrays R)
    (params : list R) (ps : parsed R).
  Hypothesis Hrho : is_renaming rho.
  Let md' := rename_model rho md.
  Variables (p' : processed) (df' : frame R) (ar' : arrays R) (ps' : parsed R).
  Hypothesis H : likelihood_setting md p n df ids lv ar params ps.
  Hypothesis Hclean : clean_anchoring md.
  Hypothesis Hown : own_columns md.
  Hypothesis H' : likelihood_setting md' p' n df' ids lv ar' params ps'.
  Hypothesis Hclean' : clean_anchoring md'.
  Hypothesis Hown' : own_columns md'.
  Hypothesis Hdata : renamed_data rho df df'.
  Hypothesis Hcustom : forall f coeffs env states,
    custom' (rho f) coeffs (rename_keys rho env) states = custom f coeffs env states.

  Let inj : forall x y, rho x = rho y -> x = y := proj1 Hrho.
  Let Hwf : wf_dicts md. Proof. apply H. Qed.
  Let Hp : process_model md = Ok p. Proof. apply H. Qed.
  Let Hn : has_n_periods md n. Proof. apply H. Qed.
  Let Hg : good_names md. Proof. apply H. Qed.
  Let Hwf' : wf_dicts md'. Proof. apply H'. Qed.
  Let Hp' : process_model md' = Ok p'. Proof. apply H'. Qed.
  Let Hn' : has_n_periods md' n. Proof. apply H'. Qed.
  Let Hg' : good_names md'. Proof. apply H'. Qed.
  Let inp := inputs_of ps ar.
  Let inp' := inputs_of ps' ar'.
  Let idx := params_index_of p.
  Let idx' := params_index_of p'.
  Let val := val_of 0 idx params.
  Let val' := val_of 0 idx' params.
  Let Hlen : length params = length idx. Proof. apply H. Qed.
  Let Hlen' : length params = length idx'. Proof. apply H'. Qed.
  Let Hnd : NoDup idx. Proof. exact (idx_NoDup md p Hwf Hg Hp). Qed.
  Let Hnd' : NoDup idx'. Proof. exact (idx_NoDup md' p' Hwf' Hg' Hp'). Qed.
  Let Hval : parameter_values idx params val. Proof. exact (val_of_ok idx params Hnd Hlen). Qed.
  Let Hval' : parameter_values idx' params val'. Proof. exact (val_of_ok idx' params Hnd' Hlen'). Qed.

  (** Parameters at the same position have the same value. *)
  Lemma same_position lb lb' : at_same idx idx' lb lb' -> val lb = val' lb'.
  Proof.
    intros (i & A1 & A2). assert (Hi : (i < length idx)%nat) by (apply nth_error_Some; congruence).
    destruct (nth_error params i) as [x|] eqn:Ex; [|apply nth_error_None in Ex; lia].
    rewrite <- (labelled_fun idx params lb x (val lb) Hnd), <- (labelled_fun idx' params lb' x (val' lb') Hnd'); try reflexivity.
    - now exists i.
    - apply (proj1 Hval'). eapply nth_error_In, A2.
    - now exists i.
    - apply (proj1 Hval). eapply nth_error_In, A1.
  Qed.

  Let L1 : l_latent (p_labels p) = latent_of md. Proof. apply (p_labels_eq md p Hp). Qed.
  Let L1' : l_latent (p_labels p') = map rho (latent_of md).
  Proof. rewrite <- (renamed_latent rho md). apply (p_labels_eq md' p' Hp'). Qed.
  Let new := new_name rho md.

  Lemma at_control t v c : In (t, v) (equations md n) -> In c ("constant"%string :: controls_of md) ->
    val (CControls, t, v, c) = val' (CControls, t, new v, rho c).
  Proof. intros Hv Hc. apply same_position. exact (pos_control rho md p n p' Hrho Hwf Hp Hn Hwf' Hp' Hn' Hclean Hclean' t v c Hv Hc). Qed.

  Lemma at_sd t v : In (t, v) (equations md n) -> val (CMeasSds, t, v, "-"%string) = val' (CMeasSds, t, new v, "-"%string).
  Proof. intros Hv. apply same_position. exact (pos_sd rho md p n p' Hrho Hwf Hp Hn Hwf' Hp' Hn' Hclean Hclean' t v Hv). Qed.

  Lemma at_loading t v f : In (t, v) (equations md n) -> In f (latent_of md) ->
    val (CLoadings, t, v, f) = val' (CLoadings, t, new v, rho f).
  Proof.
    intros Hv Hf. destruct (pos_loading rho md p n p' Hrho Hwf Hp Hn Hwf' Hp' Hn' Hclean Hclean' t v f Hv Hf) as [A|[A B]];
      [now apply same_position|]. exact (eq_trans (proj2 Hval _ A) (eq_sym (proj2 Hval' _ B))).
  Qed.

  Lemma at_shock t f : (t + 1 < n)%nat -> In f (latent_of md) ->
    val (CShockSds, t, f, "-"%string) = val' (CShockSds, t, rho f, "-"%string).
  Proof. intros Ht Hf. apply same_position. exact (pos_shock rho md p n p' Hrho Hwf Hp Hn Hwf' Hp' Hn' Hclean Hclean' t f Ht Hf). Qed.

  Lemma at_mean e f : (e < n_mixtures_of md)%nat -> In f (latent_of md) ->
    val (CInitStates, O, mixture_name e, f) = val' (CInitStates, O, mixture_name e, rho f).
  Proof. intros He Hf. apply same_position. exact (pos_mean rho md p n p' Hrho Hwf Hp Hn Hwf' Hp' Hn' Hclean Hclean' e f He Hf). Qed.

  Lemma at_weight e : (e < n_mixtures_of md)%nat ->
    val (CMixWeights, O, mixture_name e, "-"%string) = val' (CMixWeights, O, mixture_name e, "-"%string).
  Proof. intros He. apply same_position. exact (pos_weight rho md p n p' Hrho Hwf Hp Hn Hwf' Hp' Hn' Hclean Hclean' e He). Qed.

  Lemma at_chol e r c fr fc : (e < n_mixtures_of md)%nat -> nth_error (latent_of md) r = Some fr -> nth_error (latent_of md) c = Some fc ->
    (c <= r)%nat -> val (CInitChol, O, mixture_name e, cov_name fr fc) = val' (CInitChol, O, mixture_name e, cov_name (rho fr) (rho fc)).
  Proof.
    intros He Hr Hc Hle. apply same_position.
    exact (pos_chol rho md p n p' Hrho Hwf Hp Hn Hwf' Hp' Hn' Hclean Hclean' e r c fr fc He Hr Hc Hle).
  Qed.

  Let all := latent_of md ++ observed_of md.

  Lemma at_transition t f fs x x' : (t + 1 < n)%nat -> In (f, fs) (md_factors md) ->
    at_same (transition_parameters all (fs_transition fs)) (transition_parameters (map rho all) (fs_transition fs)) x x' ->
    val (CTransition, t, f, x) = val' (CTransition, t, rho f, x').
  Proof.
    intros Ht Hf Hx. apply same_position.
    exact (pos_transition rho md p n p' Hrho Hwf Hp Hn Hwf' Hp' Hn' Hclean Hclean' t f fs x x' Ht Hf Hx).
  Qed.

  Lemma run_all : latent_of md' ++ observed_of md' = map rho all.
  Proof. exact (all_renamed rho md). Qed.

  Lemma run_spec_ok f fs : In (f, fs) (md_factors md) -> valid_transition (fs_transition fs).
  Proof. apply (spec_valid md p Hwf Hp). Qed.

  (** ** Data *)

  Let given := given_value md n df lv.
  Let given' := given_value md' n df' lv.
  Let Hgiven : forall id t x, In id ids -> (t < n)%nat -> handed_over 1 md n df lv id t x (given id t x).
  Proof. intros. apply given_handed. Qed.
  Let Hgiven' : forall id t x, In id ids -> (t < n)%nat -> handed_over 1 md' n df' lv id t x (given' id t x).
  Proof. intros. apply given_handed. Qed.

  Definition has_column (x : string) : Prop :=
    In x (map copy_name (outcomes_of md)) \/
    (~ In x (map copy_name (outcomes_of md)) /\ ~ In (rho x) (map copy_name (outcomes_of md'))).

  Lemma equation_column t v : In (t, v) (equations md n) -> has_column v.
  Proof.
    intros Hv. destruct (equation_cases md n t v Hv) as [[f Mv]|(fo & Hfo & ->)].
    - right. split; [exact (measured_not_copy md Hclean t f v Mv)|exact (measured_not_copy' rho md Hclean' t f v Mv)].
    - left. now apply in_map.
  Qed.

  Lemma control_column c : In c ("constant"%string :: controls_of md) -> has_column c /\ new c = rho c.
  Proof.
    intros Hc. assert (N : ~ In c (map copy_name (outcomes_of md)) /\ ~ In (rho c) (map copy_name (outcomes_of md'))).
    { destruct Hc as [<-|Hc].
      - rewrite (proj2 Hrho). split; apply constant_not_copy.
      - split; [apply Hown; apply in_app_iff; now left|]. apply Hown'. apply in_app_iff. left. unfold md'. rewrite renamed_controls. now apply in_map. }
    split; [now right|]. now apply new_other.
  Qed.

  Lemma observed_column x : In x (observed_of md) -> has_column x /\ new x = rho x.
  Proof.
    intros Hx. assert (N : ~ In x (map copy_name (outcomes_of md)) /\ ~ In (rho x) (map copy_name (outcomes_of md'))).
    { split; [apply Hown; apply in_app_iff; now right|]. apply Hown'. apply in_app_iff. right. unfold md'. rewrite renamed_observed. now apply in_map. }
    split; [now right|]. now apply new_other.
  Qed.

  Lemma given_same id t x : has_column x -> given id t x = given' id t (new x).
  Proof.
    intros Hx. unfold given, given', given_value.
    pose proof (fun y => value_renamed rho md Hrho Hclean Hclean' df df' lv id t y Hdata) as V. fold md' new in V.
    assert (E1 : existsb (fun c => is_missing (value 1 md' df' lv id t c)) (controls_of md')
               = existsb (fun c => is_missing (value 1 md df lv id t c)) (controls_of md)).
    { unfold md' at 2. rewrite renamed_controls.
      assert (G : forall l, (forall c, In c l -> In c (controls_of md)) ->
        existsb (fun c => is_missing (value 1 md' df' lv id t c)) (map rho l) = existsb (fun c => is_missing (value 1 md df lv id t c)) l).
      { induction l as [|c l IH]; intros Hl; [reflexivity|]. cbn [map existsb]. rewrite IH by (intros y Hy; apply Hl; now right). f_equal.
        destruct (control_column c) as [Hc E]; [right; apply Hl; now left|]. rewrite <- E, (V c Hc). reflexivity. }
      now apply G. }
    assert (E2 : existsb (fun e => (fst e =? t)%nat && negb (is_missing (value 1 md' df' lv id t (snd e)))) (equations md' n)
               = existsb (fun e => (fst e =? t)%nat && negb (is_missing (value 1 md df lv id t (snd e)))) (equations md n)).
    { unfold md' at 2. rewrite (equations_renamed rho md n Hrho Hclean Hclean').
      assert (G : forall l, (forall e, In e l -> In e (equations md n)) ->
        existsb (fun e => (fst e =? t)%nat && negb (is_missing (value 1 md' df' lv id t (snd e)))) (map (rename_equation rho md) l)
        = existsb (fun e => (fst e =? t)%nat && negb (is_missing (value 1 md df lv id t (snd e)))) l).
      { induction l as [|[s v] l IH]; intros Hl; [reflexivity|]. cbn [map existsb]. rewrite IH by (intros y Hy; apply Hl; now right). f_equal.
        unfold rename_equation. cbn [fst snd]. fold new. rewrite (V v); [reflexivity|]. apply (equation_column s). apply Hl. now left. }
      now apply G. }
    rewrite E1, E2, (V x Hx). reflexivity.
  Qed.

  (** ** The run *)

  Lemma renamed_equation j t v : nth_error (equations md n) j = Some (t, v) -> equation_agrees inp inp' j j t.
  Proof.
    intros Hj. assert (Hin : In (t, v) (equations md n)) by (eapply nth_error_In, Hj).
    assert (Ht : (t < n)%nat) by (now apply (ScheduleFacts.equations_period md n t v)).
    assert (Hj' : nth_error (equations md' n) j = Some (t, new v)).
    { unfold md'. rewrite (equations_renamed rho md n Hrho Hclean Hclean'). now rewrite nth_error_map, Hj. }
    unfold equation_agrees, inp, inp'.
    rewrite (loading_form _ _ _ _ _ _ _ _ _ _ H' Hval' j t _ Hj'), (loading_form _ _ _ _ _ _ _ _ _ _ H Hval j t v Hj).
    rewrite (control_form _ _ _ _ _ _ _ _ _ _ H' Hval' j t _ Hj'), (control_form _ _ _ _ _ _ _ _ _ _ H Hval j t v Hj).
    rewrite (sd_form _ _ _ _ _ _ _ _ _ _ H' Hval' j t _ Hj'), (sd_form _ _ _ _ _ _ _ _ _ _ H Hval j t v Hj).
    rewrite (values_form _ _ _ _ _ _ _ _ _ H' _ Hgiven' j t _ Hj'), (values_form _ _ _ _ _ _ _ _ _ H _ Hgiven j t v Hj).
    rewrite (controls_form _ _ _ _ _ _ _ _ _ H' _ Hgiven' t Ht), (controls_form _ _ _ _ _ _ _ _ _ H _ Hgiven t Ht).
    assert (Ec : "constant"%string :: controls_of md' = map rho ("constant"%string :: controls_of md)).
    { cbn [map]. unfold md'. now rewrite (proj2 Hrho), renamed_controls. }
    rewrite Ec. unfold md'. rewrite renamed_latent. rewrite !(map_map rho).
    split; [|split; [|split; [|split]]].
    - f_equal. apply map_ext_in. intros f Hf. now apply at_loading.
    - f_equal. apply map_ext_in. intros c Hc. now apply at_control.
    - now apply at_sd.
    - f_equal. apply map_ext. intros id. apply given_same. now apply (equation_column t).
    - f_equal. apply map_ext. intros id. rewrite map_map. apply map_ext_in. intros c Hc.
      destruct (control_column c Hc) as [Hc' E]. rewrite <- E. now apply given_same.
  Qed.

  Lemma anchored_renamed : map (is_anchored md') (map rho (latent_of md)) = map (is_anchored md) (latent_of md).
  Proof.
    rewrite map_map. apply map_ext. intros f. unfold is_anchored, md'. rewrite renamed_outcomes, map_map. cbn [rename_outcome fst].
    generalize (outcomes_of md) as l. induction l as [|fo l IH]; [reflexivity|]. cbn [map existsb]. rewrite IH. f_equal.
    destruct (String.eqb f (fst fo)) eqn:E.
    - apply String.eqb_eq in E. subst f. apply String.eqb_refl.
    - destruct (String.eqb (rho f) (rho (fst fo))) eqn:E'; [|reflexivity]. apply String.eqb_eq in E'. apply inj in E'. subst f.
      now rewrite String.eqb_refl in E.
  Qed.

  Lemma copy_equation t fo : (t < n)%nat -> In fo (outcomes_of md) -> In (t, copy_name fo) (equations md n).
  Proof.
    intros Ht Hfo. unfold equations. apply In_first_appearances. unfold written_equations. apply in_flat_map. exists t.
    split; [apply in_seq; lia|]. apply in_map. apply in_app_iff. right. unfold outcomes_of in Hfo.
    destruct (md_anchoring md) as [a|]; [|destruct Hfo]. destruct (as_outcomes a) as [outs|]; [|destruct Hfo]. exact (in_map copy_name _ _ Hfo).
  Qed.

  Lemma renamed_scaling t : (t < n)%nat -> in_scaling inp t = in_scaling inp' t.
  Proof.
    intros Ht. unfold inp, inp'.
    rewrite (scaling_form _ _ _ _ _ _ _ _ _ _ H Hval t Hclean Ht), (scaling_form _ _ _ _ _ _ _ _ _ _ H' Hval' t Hclean' Ht).
    unfold md' at 2 3 4 5. rewrite renamed_latent, renamed_observed, renamed_outcomes, map_length, anchored_renamed, !map_map.
    do 3 f_equal. apply map_ext_in. intros fo Hfo. change (fo_name fo) with (copy_name fo).
    rewrite (at_loading t (copy_name fo) (fst fo)); [|now apply copy_equation|destruct fo; now apply Hclean in Hfo].
    unfold new. now rewrite (new_copy rho md Hclean fo Hfo).
  Qed.

  Lemma renamed_constants t : (t < n)%nat -> in_constants inp t = in_constants inp' t.
  Proof.
    intros Ht. unfold inp, inp'.
    rewrite (constants_form _ _ _ _ _ _ _ _ _ _ H Hval t Hclean Ht), (constants_form _ _ _ _ _ _ _ _ _ _ H' Hval' t Hclean' Ht).
    unfold md' at 1 2 4 5 6 7. rewrite renamed_ignores, renamed_latent, renamed_observed, renamed_outcomes, map_length, anchored_renamed, !map_map.
    destruct (ignores_constant md); [reflexivity|]. do 3 f_equal. apply map_ext_in. intros fo Hfo. change (fo_name fo) with (copy_name fo).
    rewrite (at_control t (copy_name fo) "constant"%string); [|now apply copy_equation|now left].
    unfold new. rewrite (proj2 Hrho). now rewrite (new_copy rho md Hclean fo Hfo).
  Qed.

  Lemma renamed_coeffs t : (t + 1 < n)%nat -> in_coeffs inp' t = rename_keys rho (in_coeffs inp t).
  Proof.
    intros Ht. unfold inp, inp'.
    rewrite (coeffs_form _ _ _ _ _ _ _ _ _ _ H Hval t Ht), (coeffs_form _ _ _ _ _ _ _ _ _ _ H' Hval' t Ht).
    fold all. rewrite run_all. unfold md', rename_model, rename_keys. cbn [md_factors]. rewrite !map_map.
    apply map_ext_in. intros [f fs] Hf. cbn [fst snd rename_factor fs_transition]. f_equal. symmetry.
    apply map_at_same; [apply parameters_length; now apply (run_spec_ok f)|]. intros x x' Hx. now apply (at_transition t f fs x x').
  Qed.

  Let tfunc := model_tfunc nan neg_inf custom md (p_labels p).
  Let tfunc' := model_tfunc nan neg_inf custom' md' (p_labels p').

  Lemma renamed_tfunc d : tfunc d = tfunc' (rename_keys rho d).
  Proof.
    unfold tfunc, tfunc', model_tfunc, transition_function.
    assert (Ea : l_all (p_labels p) = all) by exact (all_eq md p Hp).
    assert (Ea' : l_all (p_labels p') = map rho all) by (rewrite (all_eq md' p' Hp'); exact run_all).
    rewrite L1, L1', Ea, Ea', map_length. apply functional_extensionality. intros row. apply functional_extensionality. intros k.
    rewrite mapM_map. set (states := map row (seq 0 (length all))).
    assert (Es : factor_states (map rho all) states = rename_keys rho (factor_states all states)).
    { unfold factor_states, dict_of, rename_keys. rewrite map_rev. f_equal. generalize states as s. generalize all as l.
      induction l as [|x l IH]; intros [|y s]; try reflexivity. cbn [map combine fst snd]. now rewrite IH. }
    rewrite (mapM_ext (fun x => rbind (dget_err (md_factors md') (rho x)) (fun fs => next_state nan neg_inf custom' (map rho all) (rho x) (fs_transition fs) (rename_keys rho d) states))
      (fun f => rbind (dget_err (md_factors md) f) (fun fs => next_state nan neg_inf custom all f (fs_transition fs) d states))); [reflexivity|].
    intros f _. unfold md', rename_model. cbn [md_factors].
    assert (Er : dget_err (map (fun ffs => (rho (fst ffs), rename_factor rho (snd ffs))) (md_factors md)) (rho f)
      = match dget (md_factors md) f with Some fs => Ok (rename_factor rho fs) | None => Err KeyError end).
    { unfold dget_err. rewrite (dget_renamed rho (rename_factor rho) (md_factors md) f inj). now destruct (dget (md_factors md) f). }
    rewrite Er. unfold dget_err at 1. destruct (dget (md_factors md) f) as [fs|]; [|reflexivity]. cbn [rbind rename_factor fs_transition].
    assert (Ed : forall (e : dict (list R)), dget_err (rename_keys rho e) (rho f) = dget_err e f).
    { intros e. unfold dget_err, rename_keys. rewrite (dget_renamed rho (fun x => x) e f inj). now destruct (dget e f). }
    assert (Ed2 : forall (e : dict R), dget_err (rename_keys rho e) (rho f) = dget_err e f).
    { intros e. unfold dget_err, rename_keys. rewrite (dget_renamed rho (fun x => x) e f inj). now destruct (dget e f). }
    unfold next_state. rewrite Es, Ed, Ed2. destruct (fs_transition fs) as [s|x [ns|]|]; try reflexivity.
    destruct (dget_err d f) as [cs|]; [|reflexivity]. cbn [rbind]. apply Hcustom.
  Qed.

  Lemma renamed_transition t : (S t < n)%nat -> transition_agrees tfunc tfunc' inp inp' t.
  Proof.
    intros Ht. split; [|split; [|split; [|split; [|split; [|split]]]]]; try (apply renamed_scaling; lia); try (apply renamed_constants; lia).
    - rewrite renamed_coeffs by lia. apply renamed_tfunc.
    - unfold inp, inp'. rewrite (shock_form _ _ _ _ _ _ _ _ _ _ H Hval t), (shock_form _ _ _ _ _ _ _ _ _ _ H' Hval' t) by lia.
      unfold md'. rewrite renamed_latent, map_map. f_equal. apply map_ext_in. intros f Hf. apply at_shock; [lia|exact Hf].
    - unfold inp, inp'. rewrite (observed_form _ _ _ _ _ _ _ _ _ H _ Hgiven t), (observed_form _ _ _ _ _ _ _ _ _ H' _ Hgiven' t) by lia.
      unfold md'. rewrite renamed_observed. f_equal. apply map_ext. intros id. rewrite map_map. apply map_ext_in. intros x Hx.
      destruct (observed_column x Hx) as [Hx' E]. rewrite <- E. now apply given_same.
  Qed.

  Lemma renamed_initial : initial_belief ps = initial_belief ps'.
  Proof.
    rewrite (initial_form _ _ _ _ _ _ _ _ _ _ H Hval), (initial_form _ _ _ _ _ _ _ _ _ _ H' Hval').
    change (n_mixtures_of md') with (n_mixtures_of md). unfold md'. rewrite renamed_latent, map_length.
    f_equal; do 2 f_equal; apply map_ext_in; intros e He; apply in_seq in He.
    - rewrite map_map. apply map_ext_in. intros f Hf. apply at_mean; [lia|exact Hf].
    - apply map_ext_in. intros r Hr. apply map_ext_in. intros c Hc. destruct (r <=? c)%nat eqn:E; [|reflexivity].
      apply Nat.leb_le in E. apply in_seq in Hr, Hc.
      assert (Hr2 : (r < length (latent_of md))%nat) by lia. assert (Hc2 : (c < length (latent_of md))%nat) by lia.
      rewrite (nth_indep (map rho (latent_of md)) ""%string (rho ""%string) (n := c)) by (rewrite map_length; lia).
      rewrite (nth_indep (map rho (latent_of md)) ""%string (rho ""%string) (n := r)) by (rewrite map_length; lia).
      rewrite !map_nth. apply (at_chol e c r); [lia| | |exact E]; now apply nth_error_of_nth.
    - now rewrite (at_weight e) by lia.
  Qed.

  Lemma renamed_run :
    run_model qr nan tfunc p (length ids) ps ar (code_events 0 (purposes (p_update p)))
    = run_model qr nan tfunc' p' (length ids) ps' ar' (code_events 0 (purposes (p_update p'))).
  Proof.
    unfold run_model. rewrite <- renamed_initial.
    destruct (p_dims_eq md p Hp) as (D1 & D2 & D3 & D4 & _). destruct (p_dims_eq md' p' Hp') as (D1' & D2' & D3' & D4' & _).
    rewrite D1', D2', D3', D4', D1, D2, D3, D4. rewrite (p_options_eq _ _ Hp), (p_options_eq _ _ Hp').
    assert (K1 : length (latent_of md') = length (latent_of md)) by (unfold md'; rewrite renamed_latent; apply map_length).
    assert (K2 : length (observed_of md') = length (observed_of md)) by (unfold md'; rewrite renamed_observed; apply map_length).
    assert (K3 : length (controls_of md') = length (controls_of md)) by (unfold md'; rewrite renamed_controls; apply map_length).
    rewrite K1, K2, K3.
    rewrite (purposes_equations md p n Hwf Hp Hn), (purposes_equations md' p' n Hwf' Hp' Hn').
    assert (Ep : map (fun e => (fst e, is_anchoring_equation md' (snd e))) (equations md' n)
      = map (fun e => (fst e, is_anchoring_equation md (snd e))) (equations md n)).
    { unfold md' at 2. rewrite (equations_renamed rho md n Hrho Hclean Hclean'), map_map. apply map_ext_in. intros [t v] Hv.
      unfold rename_equation. cbn [fst snd]. f_equal. exact (anchoring_renamed rho md n Hclean Hclean' t v Hv). }
    rewrite Ep. apply run_agrees. apply code_events_Forall.
    - intros i t b Hi. rewrite nth_error_map in Hi.
      destruct (nth_error (equations md n) i) as [[s v]|] eqn:Ei; [|discriminate]. injection Hi as <- <-.
      pose proof (renamed_equation i s v Ei) as Ag. unfold ev. cbn [fst snd]. rewrite Nat.add_0_l.
      destruct (is_anchoring_equation md v); now constructor.
    - intros i t b b' _ Hi. rewrite nth_error_map in Hi.
      destruct (nth_error (equations md n) (S i)) as [[s v]|] eqn:Ei; [|discriminate]. injection Hi as Es _. cbn [fst] in Es. subst s.
      constructor. apply renamed_transition. apply (ScheduleFacts.equations_period md n _ v). eapply nth_error_In, Ei.
  Qed.
End Run.

(** *** C114 Names are only names
    If every factor, measurement, control and outcome of a model is given a new name,
    different things different names, and the columns of the data set are renamed in the
    same way, then the log likelihood of every parameter vector stays the same, and so do
    all debug outputs: position by position, the parameters keep their meaning.  Custom
    transition functions must refer to the factors by their new names. *)
Theorem C114_names :
  forall qr nan neg_inf custom custom' rho md p n df ids lv ar params ps p' df' ar' ps' debug,
    is_renaming rho ->
    likelihood_setting md p n df ids lv ar params ps -> clean_anchoring md -> own_columns md ->
    likelihood_setting (rename_model rho md) p' n df' ids lv ar' params ps' ->
    clean_anchoring (rename_model rho md) -> own_columns (rename_model rho md) ->
    renamed_data rho df df' ->
    (forall f coeffs env states, custom' (rho f) coeffs (rename_keys rho env) states = custom f coeffs env states) ->
    match log_likelihood qr nan (model_tfunc nan neg_inf custom md (p_labels p)) p ar debug params,
          log_likelihood qr nan (model_tfunc nan neg_inf custom' (rename_model rho md) (p_labels p')) p' ar' debug params with
    | Ok out, Ok out' => same_output (length ids) (length (equations md n)) (n_mixtures_of md) (length (latent_of md)) out out'
    | Err e, Err e' => e = e'
    | _, _ => False
    end.
Proof.
  intros qr nan neg_inf custom custom' rho md p n df ids lv ar params ps p' df' ar' ps' debug
    Hrho H Hclean Hown H' Hclean' Hown' Hdata Hcustom.
  apply (same_runs_length qr nan _ md p n df ids lv ar params ps _ (rename_model rho md) p' df' lv ar' params ps' debug H H').
  - rewrite (equations_renamed rho md n Hrho Hclean Hclean'). apply map_length.
  - reflexivity.
  - rewrite renamed_observed. apply map_length.
  - reflexivity.
  - exact (renamed_run qr nan neg_inf custom custom' rho md p n df ids lv ar params ps Hrho p' df' ar' ps' H Hclean Hown H' Hclean' Hown' Hdata Hcustom).
  - exact (renamed_initial rho md p n df ids lv ar params ps Hrho p' df' ar' ps' H Hclean H' Hclean').
Qed.
Print Assumptions C114_names.

(** ** Acceptance *)

Section Accepted.
  Variables (rho : string -> string) (md : model_dict).
  Hypothesis inj : forall x y, rho x = rho y -> x = y.
  Let md' := rename_model rho md.

  Lemma renamed_factor_inv g gs : In (g, gs) (md_factors md') ->
    exists f fs, g = rho f /\ gs = rename_factor rho fs /\ In (f, fs) (md_factors md).
  Proof.
    intros Hin. unfold md', rename_model in Hin. cbn [md_factors] in Hin. apply in_map_iff in Hin as ([f fs] & [= <- <-] & Hin).
    now exists f, fs.
  Qed.

  Lemma renamed_wf : wf_dicts md -> wf_dicts md'.
  Proof.
    intros [W1 W2]. split.
    - unfold md', rename_model. cbn [md_factors]. rewrite map_map. cbn [fst]. rewrite <- (map_map fst rho).
      apply NoDup_map_inj; [exact W1|]. intros x y _ _. apply inj.
    - intros a o Ha Ho. unfold md', rename_model in Ha. cbn [md_anchoring] in Ha. destruct (md_anchoring md) as [a0|]; [|discriminate].
      injection Ha as <-. cbn [rename_anchoring as_outcomes] in Ho. destruct (as_outcomes a0) as [o0|] eqn:Eo; [|discriminate].
      injection Ho as <-. rewrite map_map. cbn [rename_outcome fst]. rewrite <- (map_map fst rho).
      apply NoDup_map_inj; [exact (W2 a0 o0 eq_refl Eo)|]. intros x y _ _. apply inj.
  Qed.

  Lemma renamed_periods n : has_n_periods md n <-> has_n_periods md' n.
  Proof.
    assert (E : forall fs, length (fs_measurements (rename_factor rho fs)) = length (fs_measurements fs)) by (intros fs; apply map_length).
    split; intros [(f & fs & Hf & Hl) Hle].
    - split; [exists (rho f), (rename_factor rho fs); split; [now apply renamed_factor|now rewrite E]|].
      intros g gs Hg. apply renamed_factor_inv in Hg as (f0 & fs0 & -> & -> & H0). rewrite E. now apply (Hle f0).
    - apply renamed_factor_inv in Hf as (f0 & fs0 & -> & -> & H0). rewrite E in Hl. split; [now exists f0, fs0|].
      intros g gs Hg. rewrite <- E. apply (Hle (rho g)). now apply renamed_factor.
  Qed.

  Lemma measures_iff t f v : measures md t f v <-> measures md' t (rho f) (rho v).
  Proof.
    split; [apply renamed_measures|]. intros Hm. apply renamed_measures_inv in Hm as (f0 & v0 & E1 & E2 & Hm). apply inj in E1, E2. congruence.
  Qed.

  Lemma renamed_norms n : valid_normalizations md n <-> valid_normalizations md' n.
  Proof.
    assert (N : forall fs, fs_norm (rename_factor rho fs) = option_map (rename_normalization rho) (fs_norm fs)) by reflexivity.
    assert (D : forall (l : list (dict Q)) t d', nth_error (map (rename_keys rho) l) t = Some d' ->
              exists d, nth_error l t = Some d /\ d' = rename_keys rho d).
    { intros l t d' Hd. rewrite nth_error_map in Hd. destruct (nth_error l t) as [d|]; [|discriminate]. injection Hd as <-. now exists d. }
    assert (K : forall (d : dict Q) v q, In (v, q) (rename_keys rho d) -> exists v0, v = rho v0 /\ In (v0, q) d).
    { intros d v q Hin. apply in_map_iff in Hin as ([v0 q0] & [= <- <-] & Hin). now exists v0. }
    assert (K' : forall (d : dict Q) v q, In (v, q) d -> In (rho v, q) (rename_keys rho d)).
    { intros d v q Hin. exact (in_map (fun kv => (rho (fst kv), snd kv)) _ _ Hin). }
    split; intros (V1 & V2 & V3); (split; [|split]).
    - intros t g w q (gs & nm & lds & d & Hg & Hnm & Hl & Ht & Hin). apply renamed_factor_inv in Hg as (f & fs & -> & -> & Hf).
      rewrite N in Hnm. destruct (fs_norm fs) as [nm0|] eqn:En; [|discriminate]. injection Hnm as <-.
      cbn [rename_normalization ns_loadings] in Hl. destruct (ns_loadings nm0) as [l0|] eqn:El; [|discriminate]. injection Hl as <-.
      apply D in Ht as (d0 & Ht & ->). apply K in Hin as (v0 & -> & Hin).
      destruct (V1 t f v0 q) as [M Q]; [now exists fs, nm0, l0, d0|]. split; [now apply measures_iff|exact Q].
    - intros t g w q (gs & nm & lds & d & Hg & Hnm & Hl & Ht & Hin). apply renamed_factor_inv in Hg as (f & fs & -> & -> & Hf).
      rewrite N in Hnm. destruct (fs_norm fs) as [nm0|] eqn:En; [|discriminate]. injection Hnm as <-.
      cbn [rename_normalization ns_intercepts] in Hl. destruct (ns_intercepts nm0) as [l0|] eqn:El; [|discriminate]. injection Hl as <-.
      apply D in Ht as (d0 & Ht & ->). apply K in Hin as (v0 & -> & Hin).
      apply measures_iff. apply (V2 t f v0 q). now exists fs, nm0, l0, d0.
    - intros g gs nm l Hg Hnm Hl. apply renamed_factor_inv in Hg as (f & fs & -> & -> & Hf).
      rewrite N in Hnm. destruct (fs_norm fs) as [nm0|] eqn:En; [|discriminate]. injection Hnm as <-.
      cbn [rename_normalization ns_loadings ns_intercepts] in Hl.
      destruct Hl as [Hl|Hl]; [destruct (ns_loadings nm0) as [l0|] eqn:El|destruct (ns_intercepts nm0) as [l0|] eqn:El]; try discriminate;
        injection Hl as <-; rewrite map_length; apply (V3 f fs nm0 l0 Hf En); [now left|now right].
    - intros t f v q (fs & nm & lds & d & Hf & Hnm & Hl & Ht & Hin).
      destruct (V1 t (rho f) (rho v) q) as [M Q]; [|split; [now apply measures_iff|exact Q]].
      exists (rename_factor rho fs), (rename_normalization rho nm), (map (rename_keys rho) lds), (rename_keys rho d).
      split; [now apply renamed_factor|]. rewrite N, Hnm. cbn [option_map rename_normalization ns_loadings]. rewrite Hl.
      split; [reflexivity|]. split; [reflexivity|]. split; [now apply map_nth_error|now apply K'].
    - intros t f v q (fs & nm & lds & d & Hf & Hnm & Hl & Ht & Hin).
      apply measures_iff. apply (V2 t (rho f) (rho v) q).
      exists (rename_factor rho fs), (rename_normalization rho nm), (map (rename_keys rho) lds), (rename_keys rho d).
      split; [now apply renamed_factor|]. rewrite N, Hnm. cbn [option_map rename_normalization ns_intercepts]. rewrite Hl.
      split; [reflexivity|]. split; [reflexivity|]. split; [now apply map_nth_error|now apply K'].
    - intros f fs nm l Hf Hnm Hl. rewrite <- (map_length (rename_keys rho) l).
      apply (V3 (rho f) (rename_factor rho fs) (rename_normalization rho nm)); [now apply renamed_factor|now rewrite N, Hnm|].
      cbn [rename_normalization ns_loadings ns_intercepts]. destruct Hl as [-> | ->]; [now left|now right].
  Qed.
End Accepted.

(** A renamed model is accepted exactly if the model is. *)
Theorem C114_accepted :
  forall rho md, (forall x y, rho x = rho y -> x = y) -> wf_dicts md ->
    (exists p, process_model md = Ok p) <-> (exists p', process_model (rename_model rho md) = Ok p').
Proof.
  intros rho md inj Hwf. pose proof (renamed_wf rho md inj Hwf) as Hwf'.
  rewrite (C05_acceptance md Hwf), (C05_acceptance _ Hwf'). change (md_options (rename_model rho md)) with (md_options md).
  split; intros (Ho & n & Hn & Hs & Hv & Ht); (split; [exact Ho|]); exists n.
  - split; [now apply renamed_periods|]. split; [exact Hs|]. split; [now apply renamed_norms|].
    intros g gs Hg. apply renamed_factor_inv in Hg as (f & fs & -> & -> & Hf). exact (Ht f fs Hf).
  - split; [now apply (renamed_periods rho)|]. split; [exact Hs|]. split; [now apply (renamed_norms rho md inj)|].
    intros f fs Hf. exact (Ht (rho f) (rename_factor rho fs) (renamed_factor rho md f fs Hf)).
Qed.
Print Assumptions C114_accepted.

(** ** The renamed model can be estimated on the renamed data *)

Section Estimable.
  Variables (rho : string -> string) (md : model_dict) (p p' : processed) (n : nat) (df df' : frame R) (ids lv : list Z).
  Hypothesis Hrho : is_renaming rho.
  Let md' := rename_model rho md.
  Hypothesis Hd : data_setting md p n df ids lv.
  Hypothesis Hd' : data_setting md' p' n df' ids lv.
  Hypothesis Hclean : clean_anchoring md.
  Hypothesis Hown : own_columns md.
  Hypothesis Hclean' : clean_anchoring md'.
  Hypothesis Hown' : own_columns md'.
  Hypothesis Hdata : renamed_data rho df df'.
  Let new := new_name rho md.
  Let inj : forall x y, rho x = rho y -> x = y := proj1 Hrho.

  Lemma available_renamed x : has_column rho md x -> available md' df' (new x) -> available md df x.
  Proof.
    intros Hx Ha. destruct (in_dec string_dec x (map copy_name (outcomes_of md))) as [I|NI]; [now right; right|].
    destruct Hx as [Hx|[_ Hx]]; [now destruct (NI Hx)|]. unfold new in Ha. rewrite (new_other rho md x NI) in Ha.
    destruct Ha as [Ha|[Ha|Ha]].
    - left. destruct Hdata as (E & _). rewrite E in Ha. apply in_map_iff in Ha as (y & Ey & Hy). apply inj in Ey. now subst y.
    - right. left. rewrite <- (proj2 Hrho) in Ha. now apply inj.
    - now destruct Hx.
  Qed.

  Lemma renamed_available x : has_column rho md x -> available md df x -> available md' df' (new x).
  Proof.
    intros Hx Ha. destruct (in_dec string_dec x (map copy_name (outcomes_of md))) as [I|NI].
    - right. right. apply in_map_iff in I as (fo & <- & Hfo). unfold new. rewrite (new_copy rho md Hclean fo Hfo).
      apply in_map. now apply copy_in.
    - unfold new. rewrite (new_other rho md x NI). destruct Ha as [Ha|[->|Ha]]; [|right; left; apply Hrho|now destruct NI].
      left. destruct Hdata as (-> & _). now apply in_map.
  Qed.

  Lemma value_same id t x : has_column rho md x -> value 1 md' df' lv id t (new x) = value 1 md df lv id t x.
  Proof. intros Hx. exact (value_renamed rho md Hrho Hclean Hclean' df df' lv id t x Hdata Hx). Qed.

  Lemma new_equation t w : In (t, w) (equations md' n) -> exists v, w = new v /\ In (t, v) (equations md n) /\ has_column rho md v.
  Proof.
    unfold md'. rewrite (equations_renamed rho md n Hrho Hclean Hclean'). intros Hin. apply in_map_iff in Hin as ([s v] & [= <- <-] & Hin).
    exists v. split; [reflexivity|]. split; [exact Hin|]. exact (equation_column rho md n Hclean Hclean' s v Hin).
  Qed.

  Lemma new_control c' : In c' ("constant"%string :: controls_of md') ->
    exists c, c' = new c /\ In c ("constant"%string :: controls_of md) /\ has_column rho md c.
  Proof.
    intros Hc. assert (G : exists c, c' = rho c /\ In c ("constant"%string :: controls_of md)).
    { destruct Hc as [<-|Hc]; [exists "constant"%string; split; [symmetry; apply Hrho|now left]|].
      unfold md' in Hc. rewrite renamed_controls in Hc. apply in_map_iff in Hc as (c & <- & Hc). exists c. split; [reflexivity|now right]. }
    destruct G as (c & -> & G). destruct (control_column rho md Hrho Hown Hown' c G) as [A B]. exists c. now rewrite <- B.
  Qed.

  Lemma new_observed f' : In f' (observed_of md') -> exists f, f' = new f /\ In f (observed_of md) /\ has_column rho md f.
  Proof.
    intros Hf. unfold md' in Hf. rewrite renamed_observed in Hf. apply in_map_iff in Hf as (f & <- & Hf).
    destruct (observed_column rho md Hown Hown' f Hf) as [A B]. exists f. now rewrite <- B.
  Qed.

  Lemma problem_renamed est t x pr : has_problem 1 md' n df' ids lv est t x pr ->
    exists y, has_problem 1 md n df ids lv est t y pr.
  Proof.
    intros Hpr. destruct Hpr as [c Hc Hm|v He Hv Hm|v x He Hv Ha Hs Hall|f Hf Hm|f id Hf Ha Hid Hm].
    - apply new_control in Hc as (c0 & -> & Hc & Hcol). exists c0. constructor; [exact Hc|]. destruct Hm as [Hm|Hm].
      + left. intros F. apply Hm. now apply renamed_available.
      + right. intros id Hid. rewrite <- (value_same id t c0 Hcol). now apply Hm.
    - apply new_equation in Hv as (v0 & -> & Hv & Hcol). exists v0. constructor; [exact He|exact Hv|].
      intros F. apply Hm. now apply renamed_available.
    - apply new_equation in Hv as (v0 & -> & Hv & Hcol). exists v0. apply (measurement_constant _ _ _ _ _ _ _ _ _ v0 x); [exact He|exact Hv|now apply available_renamed| |].
      + destruct Hs as (id & Hid & Hs). exists id. split; [exact Hid|]. now rewrite <- (value_same id t v0 Hcol).
      + intros id y Hid Hy. apply (Hall id y Hid). now rewrite (value_same id t v0 Hcol).
    - apply new_observed in Hf as (f0 & -> & Hf & Hcol). exists f0. constructor; [exact Hf|].
      intros F. apply Hm. now apply renamed_available.
    - apply new_observed in Hf as (f0 & -> & Hf & Hcol). exists f0. apply (observed_incomplete _ _ _ _ _ _ _ _ _ f0 id); [exact Hf|now apply available_renamed|exact Hid|].
      now rewrite <- (value_same id t f0 Hcol).
  Qed.

  Lemma renamed_processing ar : process_data 1 req df (p_labels p) (p_update p) (p_anch p) true = Ok ar ->
    exists ar', process_data 1 req df' (p_labels p') (p_update p') (p_anch p') true = Ok ar'.
  Proof.
    intros Har. destruct (C28_check_exact 1 req md p n df ids lv true req_spec Hd) as [[Ok1 _] _].
    destruct (C28_check_exact 1 req md' p' n df' ids lv true req_spec Hd') as [[_ Ok2] _].
    destruct Ok1 as (U & Out & Np & Me); [now exists ar|]. apply Ok2. split; [|split; [|split]].
    - unfold unique_index in *. destruct Hdata as (_ & _ & _ & F).
      assert (E : map (fun r => (dr_id r, dr_period r)) (fr_rows df') = map (fun r => (dr_id r, dr_period r)) (fr_rows df)).
      { clear -F. induction F as [|r r' l l' (A & B & _) _ IH]; [reflexivity|]. cbn [map]. now rewrite A, B, IH. }
      now rewrite E.
    - intros g o' (a & outs & Ha & Ho & Hin). assert (Hin' : In (g, o') (outcomes_of md')) by (unfold outcomes_of; now rewrite Ha, Ho).
      unfold md' in Hin'. rewrite renamed_outcomes in Hin'. apply in_map_iff in Hin' as ([f o] & [= <- <-] & Hfo).
      destruct Hdata as (-> & _). apply in_map. apply (Out f o). unfold outcomes_of in Hfo.
      destruct (md_anchoring md) as [a0|] eqn:Ea; [|destruct Hfo]. destruct (as_outcomes a0) as [outs0|] eqn:Eo; [|destruct Hfo]. now exists a0, outs0.
    - intros (t & x & pr & Ht & Hpr). apply Np. destruct (problem_renamed true t x pr Hpr) as [y Hy]. now exists t, y, pr.
    - intros t w Hw. apply new_equation in Hw as (v & -> & Hv & Hcol). apply renamed_available; [exact Hcol|]. now apply (Me t).
  Qed.
End Estimable.

Lemma renamed_frame {V} rho (df df' : frame V) ids lv : renamed_data rho df df' -> wf_frame df -> ids_of df ids -> levels_of df lv ->
  wf_frame df' /\ ids_of df' ids /\ levels_of df' lv.
Proof.
  intros (_ & E2 & E3 & F) W [I1 I2] L. assert (P : forall r', In r' (fr_rows df') -> exists r, In r (fr_rows df) /\ dr_id r' = dr_id r /\ dr_period r' = dr_period r).
  { clear -F. induction F as [|r r' l l' (A & B & _) _ IH]; [intros ? []|]. intros x [<-|Hx]; [exists r; split; [now left|now split]|].
    destruct (IH x Hx) as (y & Hy & E). exists y. split; [now right|exact E]. }
  assert (P' : forall r, In r (fr_rows df) -> exists r', In r' (fr_rows df') /\ dr_id r' = dr_id r).
  { clear -F. induction F as [|r r' l l' (A & B & _) _ IH]; [intros ? []|]. intros x [<-|Hx]; [exists r'; split; [now left|exact A]|].
    destruct (IH x Hx) as (y & Hy & E). exists y. split; [now right|exact E]. }
  split; [|split; [split; [exact I1|]|]].
  - intros r' Hr'. destruct (P r' Hr') as (r & Hr & A & B). rewrite A, B, E2, E3. now apply W.
  - intros z. rewrite I2. split.
    + intros (r & Hr & Ez). destruct (P' r Hr) as (r' & Hr' & A). exists r'. split; [exact Hr'|congruence].
    + intros (r' & Hr' & Ez). destruct (P r' Hr') as (r & Hr & A & _). exists r. split; [exact Hr|congruence].
  - unfold levels_of. now rewrite E3.
Qed.

(** The renamed model can be estimated with the renamed data whenever the model can be
    estimated with the data, provided the new names are not confusing (see [good_names],
    [clear_outcomes], [clean_anchoring] and [own_columns]). *)
Theorem C114_estimable :
  forall rho md p n df ids lv ar params ps df',
    is_renaming rho ->
    likelihood_setting md p n df ids lv ar params ps -> clean_anchoring md -> own_columns md ->
    (2 <= n)%nat -> (1 <= n_mixtures_of md)%nat ->
    good_names (rename_model rho md) -> clear_outcomes (rename_model rho md) ->
    clean_anchoring (rename_model rho md) -> own_columns (rename_model rho md) ->
    renamed_data rho df df' ->
    exists p' ar' ps', likelihood_setting (rename_model rho md) p' n df' ids lv ar' params ps'.
Proof.
  intros rho md p n df ids lv ar params ps df' Hrho H Hclean Hown H2 Hm Hg' Hcl' Hclean' Hown' Hdata.
  destruct H as (Hd & Hg & Har & Hlen & Hps). pose proof Hd as (Hwf & Hp & Hn & Hcl & Hdf & Hids & Hlv).
  pose proof (renamed_wf rho md (proj1 Hrho) Hwf) as Hwf'.
  destruct (proj1 (C114_accepted rho md (proj1 Hrho) Hwf) (ex_intro _ p Hp)) as [p' Hp'].
  destruct (renamed_frame rho df df' ids lv Hdata Hdf Hids Hlv) as (Hdf' & Hids' & Hlv').
  assert (Hn' : has_n_periods (rename_model rho md) n) by (now apply renamed_periods).
  assert (Hd' : data_setting (rename_model rho md) p' n df' ids lv) by exact (conj Hwf' (conj Hp' (conj Hn' (conj Hcl' (conj Hdf' (conj Hids' Hlv')))))).
  destruct (renamed_processing rho md p p' n df df' ids lv Hrho Hd Hd' Hclean Hown Hclean' Hown' Hdata ar Har) as [ar' Har'].
  assert (Hlen' : length params = length (params_index_of p')).
  { rewrite Hlen. exact (renamed_index_length rho md p n p' Hrho Hwf Hp Hn Hwf' Hp' Hn' Hclean Hclean'). }
  destruct (C09_parsing_succeeds R 0 1 ln (rename_model rho md) p' n (length ids) params Hwf' (idx_NoDup _ p' Hwf' Hg' Hp') Hp' Hn' Hlen' Hclean' H2 Hm) as [ps' Hps'].
  exists p', ar', ps'. exact (conj Hd' (conj Hg' (conj Har' (conj Hlen' Hps')))).
Qed.
Print Assumptions C114_estimable.

(** ** An example *)

(** The example model with all names but the constant prefixed by an n. *)
Definition n_prefix (x : string) : string := if String.eqb x "constant" then x else ("n" ++ x)%string.
Definition no_prefix (x : string) : string :=
  match x with String _ y => if String.eqb x "constant" then x else y | EmptyString => x end.

Lemma n_prefix_renaming : is_renaming n_prefix.
Proof.
  split; [|reflexivity]. intros x y. unfold n_prefix.
  destruct (String.eqb x "constant") eqn:Ex, (String.eqb y "constant") eqn:Ey; intros E.
  - apply String.eqb_eq in Ex, Ey. congruence.
  - apply String.eqb_eq in Ex. subst x. discriminate.
  - apply String.eqb_eq in Ey. subst y. discriminate.
  - now injection E.
Qed.

Lemma no_prefix_n x : no_prefix (n_prefix x) = x.
Proof. unfold n_prefix. destruct (String.eqb x "constant") eqn:E; [|reflexivity]. apply String.eqb_eq in E. now subst x. Qed.

Definition n_frame (df : frame R) : frame R :=
  mk_frame (map n_prefix (fr_columns df)) (fr_id_level df) (fr_period_level df)
    (map (fun r => mk_drow (dr_id r) (dr_period r) (fun c => dr_cells r (no_prefix c))) (fr_rows df)).

Lemma n_frame_renamed df : renamed_data n_prefix df (n_frame df).
Proof.
  split; [reflexivity|]. split; [reflexivity|]. split; [reflexivity|]. unfold n_frame. cbn [fr_rows].
  induction (fr_rows df) as [|r l IH]; constructor; [|exact IH]. split; [reflexivity|]. split; [reflexivity|].
  intros x. cbn [dr_cells]. now rewrite no_prefix_n.
Qed.

Definition n_model : model_dict := rename_model n_prefix single_model.

Lemma n_good_names : good_names n_model.
Proof.
  unfold good_names, without_char. repeat split.
  - repeat constructor; simpl; intuition discriminate.
  - simpl. intros f H. intuition subst; simpl in *; intuition discriminate.
  - simpl in H. intuition subst; simpl in *; intuition discriminate.
  - simpl in *. intuition subst; intuition discriminate.
  - intros g. simpl in H. intuition subst; discriminate.
  - repeat constructor; simpl; intuition.
  - simpl. intuition discriminate.
  - intros f fs n names [[= <- <-]|[[= <- <-]|[]]] E; simpl in E; [discriminate|].
    injection E as <- <-. repeat constructor; simpl; intuition discriminate.
Qed.

Lemma n_clear : clear_outcomes n_model.
Proof.
  split; [cbn; repeat constructor; cbn; intuition discriminate|].
  intros fo Hfo. cbn in Hfo. destruct Hfo as [<-|[<-|[]]]; (split; [discriminate|cbn; intuition discriminate]).
Qed.

Lemma n_clean : clean_anchoring n_model.
Proof.
  split; [|split].
  - intros f o Ho. cbn in Ho. destruct Ho as [[= <- <-]|[[= <- <-]|[]]]; cbn; tauto.
  - cbn. repeat constructor; cbn; intuition discriminate.
  - intros t f o g Ho (fs & ms & Hin & Hm & Hv). cbn in Ho, Hin.
    destruct Hin as [[= <- <-]|[[= <- <-]|[]]], Ho as [[= <- <-]|[[= <- <-]|[]]], t as [|[|[|t]]]; cbn in Hm;
      try discriminate; try (destruct t; discriminate); injection Hm as <-; cbn in Hv; intuition discriminate.
Qed.

Lemma n_own : own_columns single_model /\ own_columns n_model.
Proof.
  split; intros x Hx; cbn in Hx; repeat (destruct Hx as [<-|Hx]; [cbn; intuition discriminate|]); destruct Hx.
Qed.

(** A custom function that looks at the state of its factor by name. *)
Definition own_state (f : string) (coeffs env : dict R) (states : list R) : result R := dget_err env f.

Example C114_nonvacuous : exists ar ps p' ar' ps',
  is_renaming n_prefix /\
  likelihood_setting single_model single_p 3 (real_frame ex_df) ex_ids ex_lv ar single_params ps /\
  clean_anchoring single_model /\ own_columns single_model /\
  likelihood_setting n_model p' 3 (n_frame (real_frame ex_df)) ex_ids ex_lv ar' single_params ps' /\
  good_names n_model /\ clear_outcomes n_model /\ clean_anchoring n_model /\ own_columns n_model /\
  renamed_data n_prefix (real_frame ex_df) (n_frame (real_frame ex_df)) /\
  (forall f coeffs env states, own_state (n_prefix f) coeffs (rename_keys n_prefix env) states = own_state f coeffs env states) /\
  latent_of n_model = ["ncog"; "nsoc"]%string /\ outcomes_of n_model = [("ncog", "nQ1"); ("nsoc", "nQ2")]%string.
Proof.
  destruct single_example as (ar & ps & H).
  assert (Hc : clean_anchoring single_model) by exact small_model_clean.
  destruct (C114_estimable n_prefix single_model single_p 3 (real_frame ex_df) ex_ids ex_lv ar single_params ps (n_frame (real_frame ex_df))
    n_prefix_renaming H Hc (proj1 n_own)) as (p' & ar' & ps' & H').
  { lia. } { apply Nat.leb_le. reflexivity. } { exact n_good_names. } { exact n_clear. } { exact n_clean. } { exact (proj2 n_own). } { apply n_frame_renamed. }
  exists ar, ps, p', ar', ps'. split; [exact n_prefix_renaming|]. split; [exact H|]. split; [exact Hc|]. split; [exact (proj1 n_own)|].
  split; [exact H'|]. split; [exact n_good_names|]. split; [exact n_clear|]. split; [exact n_clean|]. split; [exact (proj2 n_own)|].
  split; [apply n_frame_renamed|]. split; [|split; reflexivity].
  intros f coeffs env states. unfold own_state, dget_err, rename_keys.
  rewrite (dget_renamed n_prefix (fun x => x) env f (proj1 n_prefix_renaming)). now destruct (dget env f).
Qed.
