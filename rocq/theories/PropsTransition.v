(** Theorems about transition_functions.py and the transition function of a model
    (C57 to C59). *)
Require Import Reals String Arith Bool List Lia Lra.
From Verif Require Import PyBase ListFacts ModelSpec ProcessModel CheckModel SpecModel ProcessModelFacts AcceptFacts SpecParse SpecIndex
  IndexFacts ParamsIndex ParseParams PropsSpec PropsParse ProcessData SpecData PropsData RSum Kalman SpecKalman KalmanFacts QRWitness
  Likelihood SpecLikelihood PropsLikelihood TransitionFunctions SpecTransition TransitionFacts.
Import ListNotations.
Open Scope R_scope.

(** * C57 *)

(** Each implemented transition function, given the states of all factors and one
    parameter for each of its parameter names, returns the documented formula in which
    the parameter called like a factor (or a power or product of factors) multiplies
    that factor (power, product), and "constant", "phi", "tfp" and "sigma_..." play their
    documented roles. *)
Theorem C57_parameters_match_regressors :
  forall nan neg_inf all beta state own s t y,
    tf_of_string s = Some t -> documented all beta state own s y ->
    eval_tf nan neg_inf t (state own) (map state all) (map beta (transition_parameters all (TStr s))) = Ok y.
Proof. intros. now apply eval_documented. Qed.
Print Assumptions C57_parameters_match_regressors.

Example C57_nonvacuous :
  let all := ["a"; "b"; "c"]%string in
  let beta := fun n => if String.eqb n "b * c" then 2 else if String.eqb n "constant" then 1
                       else if String.eqb n "a ** 2" then 3 else 0 in
  let state := fun f => if String.eqb f "a" then 5 else if String.eqb f "b" then 7 else 11 in
  tf_translog (map state all) [0; 0; 0; 3; 0; 0; 0; 0; 2; 1] = Ok (3 * (5 * 5) + 2 * (7 * 11) + 1) /\
  documented all beta state "a" "translog" (3 * (5 * 5) + 2 * (7 * 11) + 1).
Proof.
  cbv zeta. split.
  - unfold tf_translog. cbn. f_equal. ring.
  - match goal with |- documented ?a ?b ?s _ _ ?y => replace y with (translog_formula a b s) end.
    + constructor.
    + unfold translog_formula, linear_part, square_part, interaction_part. simpl. ring.
Qed.

(** The transition functions succeed if they get as many parameters as they have
    names. *)
Lemma dot_err_total a b : length a = length b -> exists x, dot_err a b = Ok x.
Proof.
  revert b. induction a as [|x a IH]; intros [|y b] H; try discriminate; simpl; [eauto|].
  injection H as H. destruct (IH b H) as [s ->]. simpl. eauto.
Qed.

Lemma zip_err_total f a b : length a = length b -> exists x, zip_err f a b = Ok x.
Proof.
  revert b. induction a as [|x a IH]; intros [|y b] H; try discriminate; simpl; [eauto|].
  injection H as H. destruct (IH b H) as [s ->]. simpl. eauto.
Qed.

Lemma last_err_total l : (1 <= length l)%nat -> exists x, last_err l = Ok x.
Proof. destruct l; simpl; [lia|eauto]. Qed.

Lemma removelast_length {A} (l : list A) : length (removelast l) = (length l - 1)%nat.
Proof.
  destruct l as [|x l]; [reflexivity|]. destruct (exists_last (l := x :: l)) as (l' & a & ->); [discriminate|].
  rewrite removelast_last, app_length. simpl. lia.
Qed.

Lemma eval_tf_total nan neg_inf t own all states params :
  length states = length all -> length params = length (tf_params t all) ->
  exists y, eval_tf nan neg_inf t own states params = Ok y.
Proof.
  intros Hs Hp. destruct t; cbn [eval_tf tf_params] in *;
    unfold params_linear, params_log_ces, params_robust_translog, params_linear_and_squares, params_log_ces_general in Hp.
  - rewrite app_length in Hp. simpl in Hp. unfold tf_linear.
    destruct (last_err_total params) as [c ->]; [lia|]. cbn [rbind].
    destruct (dot_err_total states (removelast params)) as [d ->]; [|simpl; eauto].
    rewrite removelast_length. lia.
  - unfold params_translog in Hp. rewrite !app_length, !map_length in Hp. simpl in Hp. unfold tf_translog.
    destruct (last_err_total params) as [c ->]; [lia|]. cbn [rbind].
    destruct (dot_err_total states (firstn (length states) params)) as [d ->]; [rewrite firstn_length; lia|]. cbn [rbind].
    destruct (dot_err_total (map (fun x => x ^ 2) states) (firstn (length states) (skipn (length states) params))) as [e ->];
      [rewrite map_length, firstn_length, skipn_length; lia|]. simpl. eauto.
  - rewrite app_length in Hp. simpl in Hp. unfold tf_log_ces.
    destruct (last_err_total params) as [c ->]; [lia|]. cbn [rbind].
    rewrite (proj2 (Nat.eqb_eq _ _)); [eauto|]. rewrite removelast_length. lia.
  - eauto.
  - unfold params_translog in Hp. rewrite !app_length, !map_length in Hp. simpl in Hp. unfold tf_robust_translog, tf_translog.
    destruct (last_err_total params) as [c ->]; [lia|]. cbn [rbind]. rewrite !map_length.
    destruct (dot_err_total (map clip states) (firstn (length states) params)) as [d ->]; [rewrite map_length, firstn_length; lia|]. cbn [rbind].
    destruct (dot_err_total (map (fun x => x ^ 2) (map clip states)) (firstn (length states) (skipn (length states) params))) as [e ->];
      [rewrite !map_length, firstn_length, skipn_length; lia|]. simpl. eauto.
  - rewrite !app_length, map_length in Hp. simpl in Hp. unfold tf_linear_and_squares.
    destruct (last_err_total params) as [c ->]; [lia|]. cbn [rbind].
    destruct (dot_err_total states (firstn (length states) params)) as [d ->]; [rewrite firstn_length; lia|]. cbn [rbind].
    destruct (dot_err_total (map (fun x => x ^ 2) states) (firstn (length states) (skipn (length states) params))) as [e ->];
      [rewrite map_length, firstn_length, skipn_length; lia|]. simpl. eauto.
  - rewrite !app_length, map_length in Hp. simpl in Hp. unfold tf_log_ces_general.
    destruct (last_err_total params) as [c ->]; [lia|]. cbn [rbind].
    destruct (zip_err_total Rmult states (firstn (length states) (skipn (length states) params))) as [d ->];
      [rewrite firstn_length, skipn_length; lia|]. cbn [rbind].
    rewrite (proj2 (Nat.eqb_eq _ _)); [eauto|]. rewrite firstn_length. lia.
Qed.

(** ** The transition function of a model *)

Lemma dget_rev {V} (d : dict V) k : NoDup (dkeys d) -> dget (rev d) k = dget d k.
Proof.
  intros Hnd. destruct (dget d k) as [v|] eqn:E.
  - apply In_dget; [unfold dkeys; rewrite map_rev; now apply NoDup_rev|]. apply -> in_rev. now apply dget_In.
  - destruct (dget (rev d) k) as [v|] eqn:E'; [|reflexivity]. apply dget_In in E'. apply in_rev in E'.
    apply In_dget in E'; [|assumption]. congruence.
Qed.

Lemma labelled_unique {A} idx (vec : list A) lb x y :
  NoDup idx -> labelled idx vec lb x -> labelled idx vec lb y -> x = y.
Proof.
  intros Hnd (i & Hi & Hx) (j & Hj & Hy). assert (i = j); [|congruence].
  apply (NoDup_nth_error idx); [assumption| |congruence]. apply nth_error_Some. congruence.
Qed.

(** A callable that returns a number whatever it gets. *)
Definition total_custom (custom : string -> dict R -> dict R -> list R -> result R) : Prop :=
  forall f params env states, exists x, custom f params env states = Ok x.

Section ModelTransition.
  Variables nan neg_inf : R.
  Variable custom : string -> dict R -> dict R -> list R -> result R.
  Hypothesis Hcustom : total_custom custom.
  Variables (md : model_dict) (p : processed) (n n_obs : nat) (vec : list R) (ps : parsed R) (ar : arrays R).
  Hypothesis Hwf : wf_dicts md.
  Hypothesis Hg : good_names md.
  Hypothesis Hp : process_model md = Ok p.
  Hypothesis Hn : has_n_periods md n.
  Hypothesis Hlen : length vec = length (params_index_of p).
  Hypothesis Hps : parse_for 0 1 ln p vec n_obs = Ok ps.

  Lemma all_eq : l_all (p_labels p) = latent_of md ++ observed_of md.
  Proof. unfold l_all. now destruct (p_labels_eq md p Hp) as (-> & -> & _). Qed.

  Lemma spec_valid f fs : In (f, fs) (md_factors md) -> valid_transition (fs_transition fs).
  Proof.
    intros Hin. destruct (proj1 (C05_acceptance md Hwf) (ex_intro _ p Hp)) as (_ & m & _ & _ & _ & H). eauto.
  Qed.

  (** The coefficients of factor [f] in period [t], as the filter passes them on. *)
  Lemma coeffs_of t f fs : (t + 1 < n)%nat -> In (f, fs) (md_factors md) ->
    exists coeffs, dget (in_coeffs (inputs_of ps ar) t) f = Some coeffs /\
      length coeffs = length (transition_parameters (latent_of md ++ observed_of md) (fs_transition fs)) /\
      forall beta, (forall name, In name (transition_parameters (latent_of md ++ observed_of md) (fs_transition fs)) ->
                      labelled (params_index_of p) vec (CTransition, t, f, name) (beta name)) ->
        coeffs = map beta (transition_parameters (latent_of md ++ observed_of md) (fs_transition fs)).
  Proof.
    intros Ht Hin. destruct (C11_transition_parameters R 0 1 ln md p n n_obs vec ps Hwf (idx_NoDup md p Hwf Hg Hp) Hp Hn Hlen Hps) as [_ H].
    destruct (H f fs Hin) as (coeffs & Hd & [Hl Hrow] & Hent). exists (nth t coeffs []).
    assert (Hlr : length (nth t coeffs []) = length (transition_parameters (latent_of md ++ observed_of md) (fs_transition fs))).
    { apply Hrow. apply nth_In. lia. }
    split; [|split; [exact Hlr|]].
    - cbn [inputs_of in_coeffs]. clear -Hd. induction (ps_transition ps) as [|[g c] l IH]; [discriminate|].
      cbn [dget map fst snd] in *. destruct (String.eqb f g); [now injection Hd as ->|auto].
    - intros beta Hbeta. apply (nth_ext _ _ 0 0); [now rewrite map_length|]. intros k Hk. rewrite Hlr in Hk.
      destruct (nth_error (transition_parameters (latent_of md ++ observed_of md) (fs_transition fs)) k) as [name|] eqn:En.
      2:{ apply nth_error_None in En. lia. }
      destruct (Hent t k name Ht En) as (x & (row & Hr & Hx) & Hlab).
      rewrite (nth_of_nth_error _ _ _ 0 (map_nth_error beta _ _ En)).
      rewrite (nth_of_nth_error _ _ _ [] Hr). rewrite (nth_of_nth_error _ _ _ 0 Hx).
      apply (labelled_unique _ _ _ _ _ (C07_index_unique_partial md p Hwf Hg Hp) Hlab).
      apply Hbeta. now apply nth_error_In in En.
  Qed.

  Lemma all_nodup : NoDup (latent_of md ++ observed_of md).
  Proof. apply Hg. Qed.

  Lemma env_get row g k : nth_error (latent_of md ++ observed_of md) k = Some g ->
    dget (factor_states (latent_of md ++ observed_of md)
            (map row (seq 0 (length (latent_of md ++ observed_of md))))) g = Some (row k).
  Proof.
    intros Hk. unfold factor_states, dict_of.
    assert (Hl : length (latent_of md ++ observed_of md)
                 = length (map row (seq 0 (length (latent_of md ++ observed_of md))))).
    { now rewrite map_length, seq_length. }
    assert (Hnd : NoDup (dkeys (combine (latent_of md ++ observed_of md)
                     (map row (seq 0 (length (latent_of md ++ observed_of md))))))).
    { unfold dkeys. rewrite map_fst_combine by exact Hl. apply all_nodup. }
    rewrite dget_rev by exact Hnd. apply In_dget; [exact Hnd|].
    assert (Hk' : (k < length (latent_of md ++ observed_of md))%nat) by (apply nth_error_Some; congruence).
    assert (E : nth k (combine (latent_of md ++ observed_of md)
                     (map row (seq 0 (length (latent_of md ++ observed_of md))))) (g, row k) = (g, row k)).
    { rewrite combine_nth by exact Hl. rewrite (nth_of_nth_error _ _ _ g Hk). f_equal.
      rewrite (map_nth row). now rewrite seq_nth. }
    rewrite <- E. apply nth_In. rewrite combine_length, <- Hl. lia.
  Qed.

  Lemma next_state_total t row f fs : (t + 1 < n)%nat -> In (f, fs) (md_factors md) ->
    exists y, next_state nan neg_inf custom (l_all (p_labels p)) f (fs_transition fs)
                (in_coeffs (inputs_of ps ar) t) (map row (seq 0 (length (l_all (p_labels p))))) = Ok y.
  Proof.
    intros Ht Hin. rewrite all_eq. destruct (coeffs_of t f fs Ht Hin) as (c & Hc & Hl & _).
    destruct (spec_valid f fs Hin) as [(s & Es & Hs)|(fn & names & Es)]; rewrite Es in *; cbn [next_state].
    - assert (Hf : In f (latent_of md ++ observed_of md)).
      { apply in_or_app. left. apply in_map_iff. exists (f, fs). auto. }
      apply In_nth_error in Hf as [k Hk]. unfold dget_err.
      assert (Et : exists tn, tf_of_string s = Some tn /\
                 tf_params tn (latent_of md ++ observed_of md) = transition_parameters (latent_of md ++ observed_of md) (TStr s)).
      { repeat (destruct Hs as [<-|Hs]; [eexists; split; [reflexivity|];
          cbn [tf_params transition_parameters]; unfold params_robust_translog, params_translog;
          rewrite ?combinations2_pairs; reflexivity|]). destruct Hs. }
      destruct Et as (tn & -> & Et). rewrite (env_get row f k Hk). cbn [rbind]. rewrite Hc. cbn [rbind].
      apply (eval_tf_total nan neg_inf tn _ (latent_of md ++ observed_of md)); [now rewrite map_length, seq_length|].
      now rewrite Et.
    - unfold dget_err. rewrite Hc. cbn [rbind]. apply Hcustom.
  Qed.

  Lemma transition_total t row : (t + 1 < n)%nat ->
    exists next, transition_function nan neg_inf custom md (p_labels p) (in_coeffs (inputs_of ps ar) t)
                   (map row (seq 0 (length (l_all (p_labels p))))) = Ok next.
  Proof.
    intros Ht. unfold transition_function. apply mapM_total. intros f Hf.
    destruct (p_labels_eq md p Hp) as (E & _). rewrite E in Hf. apply in_map_iff in Hf as ([f' fs] & Ef & Hin).
    cbn [fst] in Ef. subst f'. unfold dget_err. rewrite (In_dget (md_factors md) f fs) by (try apply Hwf; assumption).
    cbn [rbind]. now apply next_state_total.
  Qed.

  (** The next state of the factor in column [j], for the period [t], any row of
      states, the parameters with labels (transition, t, factor, name) and the states
      by factor. *)
  Theorem C57_model_transition :
    forall t j f fs row beta state,
      (t + 1 < n)%nat -> nth_error (latent_of md) j = Some f -> In (f, fs) (md_factors md) ->
      (forall name, In name (transition_parameters (latent_of md ++ observed_of md) (fs_transition fs)) ->
         labelled (params_index_of p) vec (CTransition, t, f, name) (beta name)) ->
      (forall k g, nth_error (latent_of md ++ observed_of md) k = Some g -> state g = row k) ->
      let next := model_tfunc nan neg_inf custom md (p_labels p) (in_coeffs (inputs_of ps ar) t) row j in
      (forall s y, fs_transition fs = TStr s ->
         documented (latent_of md ++ observed_of md) beta state f s y -> next = y) /\
      (forall fn names, fs_transition fs = TFun fn (Some names) ->
         exists params env,
           (forall name, In name names -> dget params name = Some (beta name)) /\
           (forall g, In g (latent_of md ++ observed_of md) -> dget env g = Some (state g)) /\
           custom f params env (map row (seq 0 (length (latent_of md ++ observed_of md)))) = Ok next).
  Proof.
    intros t j f fs row beta state Ht Hj Hin Hbeta Hstate next.
    destruct (transition_total t row Ht) as [l El].
    assert (Enext : next = nth j l 0).
    { unfold next, model_tfunc. now rewrite El. }
    unfold transition_function in El. destruct (p_labels_eq md p Hp) as (Elat & _).
    rewrite Elat in El. destruct (mapM_nth_error _ _ _ _ _ El Hj) as (y0 & Hy0 & Ey).
    rewrite (nth_of_nth_error _ _ _ 0 Hy0) in Enext.
    unfold dget_err in Ey. rewrite (In_dget (md_factors md) f fs) in Ey by (try apply Hwf; assumption).
    cbn [rbind] in Ey. rewrite all_eq in Ey.
    destruct (coeffs_of t f fs Ht Hin) as (c & Hc & Hl & Hbeta'). specialize (Hbeta' beta Hbeta).
    assert (Hrow : map row (seq 0 (length (latent_of md ++ observed_of md))) = map state (latent_of md ++ observed_of md)).
    { apply (nth_ext _ _ 0 0); [now rewrite !map_length, seq_length|]. rewrite map_length, seq_length. intros k Hk.
      destruct (nth_error (latent_of md ++ observed_of md) k) as [g|] eqn:Eg; [|apply nth_error_None in Eg; lia].
      rewrite (nth_of_nth_error _ _ _ 0 (map_nth_error state _ _ Eg)), (Hstate k g Eg).
      assert (Es : nth_error (seq 0 (length (latent_of md ++ observed_of md))) k = Some k).
      { rewrite (nth_error_nth' _ 0%nat) by (now rewrite seq_length). now rewrite seq_nth. }
      now rewrite (nth_of_nth_error _ _ _ 0 (map_nth_error row _ _ Es)). }
    assert (Hf : exists k, nth_error (latent_of md ++ observed_of md) k = Some f).
    { exists j. now rewrite nth_error_app1 by (apply nth_error_Some; congruence). }
    destruct Hf as [k Hk]. split.
    - intros s y Es Hdoc. rewrite Es in Ey. cbn [next_state] in Ey.
      destruct (tf_of_string s) as [tn|] eqn:Etn; [|discriminate]. unfold dget_err in Ey.
      rewrite (env_get row f k Hk) in Ey. cbn [rbind] in Ey. rewrite Hc in Ey. cbn [rbind] in Ey.
      rewrite Hrow, Hbeta', <- (Hstate k f Hk), Es in Ey.
      rewrite (eval_documented nan neg_inf _ beta state f s tn y Etn Hdoc) in Ey. congruence.
    - intros fn names Es. rewrite Es in Ey. cbn [next_state] in Ey. unfold dget_err in Ey. rewrite Hc in Ey. cbn [rbind] in Ey.
      eexists _, _. split; [|split; [|rewrite Enext; exact Ey]].
      + intros name Hname.
        assert (Hnd : NoDup names) by (eapply Hg; eassumption).
        rewrite Es in Hbeta', Hl. cbn [transition_parameters] in Hbeta', Hl. unfold dict_of.
        assert (Hnd' : NoDup (dkeys (combine names c))) by (unfold dkeys; now rewrite map_fst_combine).
        rewrite dget_rev by exact Hnd'. apply In_dget; [exact Hnd'|]. rewrite Hbeta'. clear -Hname.
        induction names as [|a names IH]; [destruct Hname|]. simpl. destruct Hname as [->|Hname]; [now left|right; auto].
      + intros g Hgin. apply In_nth_error in Hgin as [kg Hkg]. rewrite (env_get row g kg Hkg). f_equal.
        symmetry. now apply Hstate.
  Qed.

  (** The transition function of a model only reads the states of its factors. *)
  Lemma model_tfunc_local : forall c,
    local_transition (n_latent (p_dims p)) (n_latent (p_dims p) + n_observed (p_dims p))
      (model_tfunc nan neg_inf custom md (p_labels p) c).
  Proof using Hp.
    intros c v w Hvw j _. unfold model_tfunc.
    assert (E : map v (seq 0 (length (l_all (p_labels p)))) = map w (seq 0 (length (l_all (p_labels p))))).
    { apply map_ext_in. intros k Hk. apply in_seq in Hk. apply Hvw. rewrite all_eq, app_length in Hk.
      destruct (p_dims_eq md p Hp) as (-> & -> & _). clear -Hk. lia. }
    now rewrite E.
  Qed.

  (** The function for one factor is the component of the transition function. *)
  Theorem C57_individual_functions :
    forall t row j f, (t + 1 < n)%nat -> nth_error (latent_of md) j = Some f ->
      individual_function nan neg_inf custom md (p_labels p) f (in_coeffs (inputs_of ps ar) t)
        (map row (seq 0 (length (l_all (p_labels p)))))
      = Ok (model_tfunc nan neg_inf custom md (p_labels p) (in_coeffs (inputs_of ps ar) t) row j).
  Proof.
    intros t row j f Ht Hj. destruct (transition_total t row Ht) as [l El].
    unfold model_tfunc. rewrite El. unfold transition_function in El. destruct (p_labels_eq md p Hp) as (Elat & _).
    rewrite Elat in El. destruct (mapM_nth_error _ _ _ _ _ El Hj) as (y0 & Hy0 & Ey).
    rewrite (nth_of_nth_error _ _ _ 0 Hy0). exact Ey.
  Qed.
End ModelTransition.
Print Assumptions C57_model_transition.
Print Assumptions C57_individual_functions.

Definition plain_custom : string -> dict R -> dict R -> list R -> result R :=
  fun _ params env _ => match dget params "q", dget env "inc" with
                        | Some q, Some i => Ok (q * i)
                        | _, _ => Ok 0
                        end.

(** The example model: the factor cog has a translog transition, soc a custom one. *)
Example C57_model_nonvacuous : exists ar ps beta state,
  total_custom plain_custom /\
  likelihood_setting single_model single_p 3 (real_frame ex_df) ex_ids ex_lv ar single_params ps /\
  nth_error (latent_of single_model) 0 = Some "cog"%string /\
  (forall f fs name, In (f, fs) (md_factors single_model) ->
     In name (transition_parameters ["cog"; "soc"; "inc"]%string (fs_transition fs)) ->
     labelled (params_index_of single_p) single_params (CTransition, 0%nat, f, name) (beta f name)) /\
  (forall k g, nth_error (latent_of single_model ++ observed_of single_model) k = Some g -> state g = INR k) /\
  documented ["cog"; "soc"; "inc"]%string (beta "cog"%string) state "cog" "translog"
    (translog_formula ["cog"; "soc"; "inc"]%string (beta "cog"%string) state).
Proof.
  destruct single_example as (ar & ps & H). exists ar, ps.
  exists (fun f name => ParseFacts.val_of 0 (params_index_of single_p) single_params (CTransition, 0%nat, f, name)).
  exists (fun g => if String.eqb g "cog" then 0 else if String.eqb g "soc" then 1 else 2).
  split.
  { intros f params env states. unfold plain_custom. destruct (dget params "q"), (dget env "inc"); eauto. }
  split; [exact H|]. split; [reflexivity|]. split; [|split; [|constructor]].
  - intros f fs name Hin Hname.
    apply (val_labelled R 0 single_model single_p single_params).
    + apply H.
    + apply (idx_NoDup single_model single_p); apply H.
    + apply H.
    + apply H.
    + apply (par_transition _ 0 3 f fs); [apply H|lia|assumption|assumption].
  - intros k g Hk. destruct k as [|[|[|k]]]; cbn in Hk.
    + injection Hk as <-. reflexivity.
    + injection Hk as <-. reflexivity.
    + injection Hk as <-. simpl. lra.
    + destruct k; discriminate.
Qed.

(** * C58 *)

(** With zero coefficients on squares and products the translog function is the linear
    function with the same coefficients; without products only it is
    linear_and_squares. robust_translog is translog at the clipped states, in particular
    translog itself if no state exceeds 10^12 in absolute value. *)
Theorem C58_nesting :
  forall all beta state,
    let states := map state all in
    let names s := transition_parameters all (TStr s) in
    ((forall f, In f all -> beta (f ++ " ** 2")%string = 0) ->
     (forall f g, In (f, g) (pairs_in_order all) -> beta (f ++ " * " ++ g)%string = 0) ->
     tf_translog states (map beta (names "translog"%string)) = tf_linear states (map beta (names "linear"%string))) /\
    ((forall f g, In (f, g) (pairs_in_order all) -> beta (f ++ " * " ++ g)%string = 0) ->
     tf_translog states (map beta (names "translog"%string))
     = tf_linear_and_squares states (map beta (names "linear_and_squares"%string))) /\
    ((forall f, In f all -> beta (f ++ " ** 2")%string = 0) ->
     tf_linear_and_squares states (map beta (names "linear_and_squares"%string))
     = tf_linear states (map beta (names "linear"%string))) /\
    (forall params, tf_robust_translog states params = tf_translog (map clipped states) params) /\
    ((forall f, In f all -> Rabs (state f) <= IZR (10 ^ 12)) ->
     forall params, tf_robust_translog states params = tf_translog states params).
Proof.
  intros all beta state states names.
  assert (Et : tf_translog states (map beta (names "translog"%string)) = Ok (translog_formula all beta state)).
  { unfold names, states. cbn [transition_parameters]. rewrite <- combinations2_pairs. apply eval_translog. }
  assert (El : tf_linear states (map beta (names "linear"%string)) = Ok (linear_formula all beta state))
    by apply eval_linear.
  assert (Eq : tf_linear_and_squares states (map beta (names "linear_and_squares"%string)) = Ok (squares_formula all beta state))
    by apply eval_squares.
  assert (Er : forall params, tf_robust_translog states params = tf_translog (map clipped states) params).
  { intros params. unfold tf_robust_translog. f_equal. apply map_ext. intros x. apply clip_clipped. }
  assert (Zs : (forall f, In f all -> beta (f ++ " ** 2")%string = 0) -> square_part all beta state = 0).
  { intros H. apply sum_of_zero. intros f Hf. rewrite H by assumption. ring. }
  assert (Zp : (forall f g, In (f, g) (pairs_in_order all) -> beta (f ++ " * " ++ g)%string = 0) -> interaction_part all beta state = 0).
  { intros H. apply sum_of_zero. intros [f g] Hf. cbn [fst snd]. rewrite H by assumption. ring. }
  rewrite Et, El, Eq. split; [|split; [|split; [|split; [exact Er|]]]].
  - intros H1 H2. f_equal. unfold translog_formula, linear_formula. rewrite Zs, Zp by assumption. ring.
  - intros H2. f_equal. unfold translog_formula, squares_formula. rewrite Zp by assumption. ring.
  - intros H1. f_equal. unfold squares_formula, linear_formula. rewrite Zs by assumption. ring.
  - intros H params. rewrite Er. f_equal. unfold states. rewrite map_map. apply map_ext_in. intros f Hf.
    specialize (H f Hf). unfold clipped. set (b := IZR (10 ^ 12)) in *. clearbody b. unfold Rabs in H.
    destruct (Rcase_abs (state f)), (Rlt_dec (state f) (- b)), (Rlt_dec b (state f)); lra.
Qed.
Print Assumptions C58_nesting.

Example C58_nonvacuous :
  let all := ["a"; "b"]%string in
  let beta := fun n => if String.eqb n "a" then 2 else if String.eqb n "constant" then 7 else 0 in
  (forall f, In f all -> beta (f ++ " ** 2")%string = 0) /\
  (forall f g, In (f, g) (pairs_in_order all) -> beta (f ++ " * " ++ g)%string = 0) /\
  tf_translog [3; 4] (map beta (transition_parameters all (TStr "translog"))) = Ok 13.
Proof.
  cbv zeta. split; [|split].
  - intros f [<-|[<-|[]]]; reflexivity.
  - intros f g [[= <- <-]|[]]. reflexivity.
  - unfold tf_translog. cbn. f_equal. ring.
Qed.

(** * C59 *)

Lemma sum_of_const {A} (l : list A) (w : A -> R) c : sum_of l (fun x => w x * c) = sum_of l w * c.
Proof. induction l as [|x l IH]; simpl; [ring|]. rewrite IH. ring. Qed.

Lemma exp_le x y : x <= y -> exp x <= exp y.
Proof. intros [H|H]; [left; now apply exp_increasing|right; now f_equal]. Qed.

Lemma ln_le_exp x y : 0 < x -> x <= exp y -> ln x <= y.
Proof.
  intros Hx [H|H]; [|rewrite H, ln_exp; lra]. left. rewrite <- (ln_exp y). now apply ln_increasing.
Qed.

Lemma exp_le_ln x y : exp y <= x -> y <= ln x.
Proof.
  intros [H|H]; [|rewrite <- H, ln_exp; lra]. left. rewrite <- (ln_exp y) at 1. apply ln_increasing; [apply exp_pos|assumption].
Qed.

(** log_ces with shares that sum to one is a generalized mean of the states: it lies
    between any bounds of the states, moves one for one with a common shift, and is
    the special case of log_ces_general with equal sigmas phi and tfp = 1 / phi. *)
Theorem C59_log_ces_is_a_mean :
  forall nan neg_inf all beta state,
    shares all beta -> sum_of all beta = 1 -> beta "phi"%string <> 0 ->
    let names s := transition_parameters all (TStr s) in
    exists y, tf_log_ces nan neg_inf (map state all) (map beta (names "log_ces"%string)) = Ok y /\
      (forall lo hi, (forall f, In f all -> lo <= state f <= hi) -> lo <= y <= hi) /\
      (forall c, tf_log_ces nan neg_inf (map (fun f => state f + c) all) (map beta (names "log_ces"%string)) = Ok (y + c)) /\
      (forall beta', (forall f, In f all -> beta' f = beta f /\ beta' ("sigma_" ++ f)%string = beta "phi"%string) ->
         beta' "tfp"%string = 1 / beta "phi"%string ->
         tf_log_ces_general nan neg_inf (map state all) (map beta' (names "log_ces_general"%string)) = Ok y).
Proof.
  intros nan neg_inf all beta state Hsh H1 Hphi names. exists (log_ces_formula all beta state).
  assert (E : forall st, tf_log_ces nan neg_inf (map st all) (map beta (names "log_ces"%string)) = Ok (log_ces_formula all beta st))
    by (intros st; now apply eval_log_ces).
  assert (Hpos : forall st, 0 < sum_of all (fun f => beta f * exp (beta "phi"%string * st f))).
  { intros st. destruct Hsh as [Hnn (f & Hf & Hp)]. apply sum_of_pos.
    - intros g Hgin. apply Rmult_le_pos; [now apply Hnn|left; apply exp_pos].
    - exists f. split; [assumption|]. apply Rmult_lt_0_compat; [assumption|apply exp_pos]. }
  split; [apply E|]. split; [|split].
  - intros lo hi Hb. set (phi := beta "phi"%string) in *.
    assert (Hle : forall u, (forall f, In f all -> phi * state f <= phi * u) ->
              ln (sum_of all (fun f => beta f * exp (phi * state f))) <= phi * u).
    { intros u Hu. apply ln_le_exp; [apply Hpos|].
      rewrite <- (Rmult_1_l (exp (phi * u))), <- H1, <- sum_of_const. apply sum_of_le. intros f Hf.
      apply Rmult_le_compat_l; [now apply (proj1 Hsh)|]. apply exp_le, Hu, Hf. }
    assert (Hge : forall u, (forall f, In f all -> phi * u <= phi * state f) ->
              phi * u <= ln (sum_of all (fun f => beta f * exp (phi * state f)))).
    { intros u Hu. apply exp_le_ln.
      rewrite <- (Rmult_1_l (exp (phi * u))), <- H1, <- sum_of_const. apply sum_of_le. intros f Hf.
      apply Rmult_le_compat_l; [now apply (proj1 Hsh)|]. apply exp_le, Hu, Hf. }
    unfold log_ces_formula. fold phi. set (L := ln _) in *.
    assert (EL : L = phi * (L / phi)) by (field; assumption).
    destruct (Rtotal_order phi 0) as [Hneg|[Hz|Hp]]; [|contradiction|].
    + assert (A1 : phi * hi <= L) by (apply Hge; intros f Hf; specialize (Hb f Hf); apply Rmult_le_compat_neg_l; lra).
      assert (A2 : L <= phi * lo) by (apply Hle; intros f Hf; specialize (Hb f Hf); apply Rmult_le_compat_neg_l; lra).
      rewrite EL in A1, A2. split.
      * apply Ropp_le_cancel. apply (Rmult_le_reg_l (- phi)); [lra|]. lra.
      * apply Ropp_le_cancel. apply (Rmult_le_reg_l (- phi)); [lra|]. lra.
    + assert (A1 : phi * lo <= L) by (apply Hge; intros f Hf; specialize (Hb f Hf); apply Rmult_le_compat_l; lra).
      assert (A2 : L <= phi * hi) by (apply Hle; intros f Hf; specialize (Hb f Hf); apply Rmult_le_compat_l; lra).
      rewrite EL in A1, A2. split; apply (Rmult_le_reg_l phi); assumption.
  - intros c. rewrite E. f_equal. unfold log_ces_formula. set (phi := beta "phi"%string) in *.
    assert (Es : sum_of all (fun f => beta f * exp (phi * (state f + c)))
                 = sum_of all (fun f => beta f * exp (phi * state f)) * exp (phi * c)).
    { rewrite <- sum_of_const. apply sum_of_ext. intros f _. rewrite Rmult_plus_distr_l, exp_plus. ring. }
    rewrite Es, ln_mult by (try apply exp_pos; apply Hpos). rewrite ln_exp. field. assumption.
  - intros beta' Hb Ht.
    assert (Hsh' : shares all beta').
    { destruct Hsh as [Hnn (f & Hf & Hp)]. split.
      - intros g Hgin. destruct (Hb g Hgin) as [-> _]. now apply Hnn.
      - exists f. split; [assumption|]. destruct (Hb f Hf) as [-> _]. exact Hp. }
    unfold names. cbn [transition_parameters]. rewrite eval_log_ces_general by assumption. f_equal.
    unfold log_ces_general_formula, log_ces_formula. rewrite Ht.
    rewrite (sum_of_ext all (fun f => beta' f * exp (beta' ("sigma_" ++ f)%string * state f))
               (fun f => beta f * exp (beta "phi"%string * state f))).
    + field. assumption.
    + intros f Hf. destruct (Hb f Hf) as [-> ->]. reflexivity.
Qed.
Print Assumptions C59_log_ces_is_a_mean.

(** Shares 0 and 1: log_ces returns the second state. *)
Example C59_nonvacuous :
  let all := ["a"; "b"]%string in
  let beta := fun n => if String.eqb n "b" then 1 else if String.eqb n "phi" then -2 else 0 in
  shares all beta /\ sum_of all beta = 1 /\ beta "phi"%string <> 0 /\
  forall nan neg_inf, tf_log_ces nan neg_inf [5; 3] (map beta (all ++ ["phi"%string])) = Ok 3.
Proof.
  cbv zeta.
  assert (Hsh : shares ["a"; "b"]%string (fun n => if String.eqb n "b" then 1 else if String.eqb n "phi" then -2 else 0)).
  { split; [intros f [<-|[<-|[]]]; simpl; lra|]. exists "b"%string. simpl. split; [tauto|lra]. }
  split; [exact Hsh|]. split; [simpl; lra|]. split; [simpl; lra|].
  intros nan neg_inf.
  pose proof (eval_log_ces nan neg_inf _ _ (fun f => if String.eqb f "b" then 3 else 5) Hsh) as E.
  cbn [map] in E. simpl String.eqb in E. cbv iota in E. simpl map at 1. simpl map in E. rewrite E. f_equal.
  unfold log_ces_formula. simpl. rewrite Rmult_0_l, Rmult_1_l, Rplus_0_l, Rplus_0_r, ln_exp. field.
Qed.

(** * C43 for the transition function of the model *)

(** The hypothesis of C43 on the transition function holds for every model, also with
    custom functions. *)
Theorem C43_for_the_model_transition :
  forall qr nan neg_inf custom md p n df ids lv ar df' ids' lv' ar' params ps ps' debug i id j id',
    local_qr qr ->
    likelihood_setting md p n df ids lv ar params ps ->
    likelihood_setting md p n df' ids' lv' ar' params ps' ->
    nth_error ids i = Some id -> nth_error ids' j = Some id' ->
    same_data n df lv id df' lv' id' ->
    let tfunc := model_tfunc nan neg_inf custom md (p_labels p) in
    match log_likelihood qr nan tfunc p ar debug params, log_likelihood qr nan tfunc p ar' debug params with
    | Ok out, Ok out' => out_contributions out i = out_contributions out' j
    | Err e, Err e' => e = e'
    | _, _ => False
    end.
Proof.
  intros qr nan neg_inf custom md p n df ids lv ar df' ids' lv' ar' params ps ps' debug i id j id' Hqr H H' Hi Hj Hs tfunc.
  apply (C43_individuals_independent qr nan tfunc md p n df ids lv ar df' ids' lv' ar' params ps ps' debug i id j id' Hqr);
    try assumption.
  intros c. apply model_tfunc_local. apply H.
Qed.
Print Assumptions C43_for_the_model_transition.
