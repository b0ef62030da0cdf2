(** C98: the gradients handed to the optimizer. *)
From Coquelicot Require Import Coquelicot.
Require Import Reals Qreals Lra String Arith ZArith Bool Permutation List Lia FunctionalExtensionality.
From Verif Require Import PyBase ListFacts StringFacts ModelSpec ProcessModel CheckModel SpecModel ProcessModelFacts SpecParse
  SpecIndex IndexFacts ParamsIndex ParseParams ParamsVec PropsParse ProcessData SpecData RSum Kalman Clipping
  Likelihood SpecLikelihood LikelihoodRun DebugData Constraints PropsSpec ScheduleFacts ExampleModels PropsData SpecKalman KalmanOrder KalmanFacts LikelihoodFacts ModelInputs PropsLikelihood PropsConstraints SimulateFacts Maximization SpecGradient.
Import ListNotations.
Open Scope R_scope.

(** ** Changing one parameter *)

Lemma put_length {A} k (y : A) v : (k < length v)%nat -> length (put k y v) = length v.
Proof. intros H. unfold put. rewrite app_length, firstn_length, Nat.min_l by lia. cbn [length]. rewrite skipn_length. lia. Qed.

Lemma put_nth_error {A} k (y : A) v j : (k < length v)%nat ->
  nth_error (put k y v) j = if (j =? k)%nat then Some y else nth_error v j.
Proof.
  intros H. unfold put. revert v j H. induction k as [|k IH]; intros [|x v] j H; cbn [length] in H; try lia.
  - destruct j; reflexivity.
  - destruct j; [reflexivity|]. cbn [firstn skipn app nth_error]. rewrite Nat.sub_0_r || idtac.
    specialize (IH v j ltac:(lia)). cbn [Nat.eqb]. rewrite <- IH. reflexivity.
Qed.

Lemma set_value_labels params lb y : map fst (set_value params lb y) = map fst params.
Proof.
  unfold set_value. rewrite map_map. apply map_ext. intros [lb' x]. cbn [fst].
  destruct (label_eqb lb lb') eqn:E; [|reflexivity]. apply label_eqb_spec in E. now subst.
Qed.

Lemma set_value_In params lb y lb' x :
  In (lb', x) (set_value params lb y) <->
  (lb' = lb /\ x = y /\ In lb (map fst params)) \/ (lb' <> lb /\ In (lb', x) params).
Proof.
  unfold set_value. rewrite in_map_iff. split.
  - intros ([l0 x0] & E & Hin). cbn [fst] in E. destruct (label_eqb lb l0) eqn:El.
    + apply label_eqb_spec in El. subst l0. injection E as <- <-. left. split; [reflexivity|]. split; [reflexivity|].
      now apply (in_map fst) in Hin.
    + injection E as -> ->. right. split; [|exact Hin]. intros ->.
      rewrite (proj2 (label_eqb_spec lb lb) eq_refl) in El. discriminate.
  - intros [(-> & -> & Hin)|[Hne Hin]].
    + apply in_map_iff in Hin as ([l0 x0] & E & Hin). cbn [fst] in E. subst l0. exists (lb, x0). split; [|exact Hin].
      cbn [fst]. now rewrite (proj2 (label_eqb_spec lb lb) eq_refl).
    + exists (lb', x). split; [|exact Hin]. cbn [fst]. destruct (label_eqb lb lb') eqn:El; [|reflexivity].
      apply label_eqb_spec in El. congruence.
Qed.

(** The vector of a DataFrame with one changed row. *)
Lemma set_value_vec params idx v lb k y : NoDup (map fst params) -> NoDup idx ->
  get_params_vec params idx = Ok v -> nth_error idx k = Some lb ->
  get_params_vec (set_value params lb y) idx = Ok (put k y v).
Proof.
  intros Hnd Hidx Hv Hk.
  destruct (C13_errors R params idx Hnd) as (H1 & _ & H3).
  pose proof (proj1 H1 (ex_intro _ v Hv)) as Hsame. destruct (H3 v Hv) as [Hlen Hlab].
  assert (Hnd' : NoDup (map fst (set_value params lb y))) by now rewrite set_value_labels.
  destruct (C13_errors R (set_value params lb y) idx Hnd') as (H1' & _ & H3').
  destruct (proj2 H1') as [v' Hv']. { intros l. rewrite set_value_labels. apply Hsame. }
  destruct (H3' v' Hv') as [Hlen' Hlab']. rewrite Hv'. f_equal.
  assert (Hkl : (k < length v)%nat). { rewrite Hlen. apply nth_error_Some. congruence. }
  apply SimulateFacts.nth_error_ext. intros j. rewrite put_nth_error by exact Hkl.
  destruct (nth_error idx j) as [l|] eqn:Ej.
  2:{ assert (L : (length idx <= j)%nat) by now apply nth_error_None.
      destruct (Nat.eqb_spec j k) as [->|]; [congruence|].
      rewrite (proj2 (nth_error_None v' j)) by lia. symmetry. apply nth_error_None. lia. }
  assert (Hl : In l (map fst params)) by (apply Hsame; now apply nth_error_In in Ej).
  destruct (Nat.eqb_spec j k) as [->|Hjk].
  - rewrite Hk in Ej. injection Ej as <-.
    destruct (Hlab' lb y) as (j & Ej & Ev). { apply set_value_In. left. auto. }
    assert (j = k) as ->. { eapply (proj1 (NoDup_nth_error idx) Hidx); [|congruence]. apply nth_error_Some. congruence. }
    exact Ev.
  - assert (Hne : l <> lb).
    { intros ->. apply Hjk. apply (proj1 (NoDup_nth_error idx) Hidx); [apply nth_error_Some; congruence|congruence]. }
    apply in_map_iff in Hl as ([l0 x] & E & Hin). cbn [fst] in E. subst l0.
    destruct (Hlab l x Hin) as (a & Ea & Eva). destruct (Hlab' l x) as (b & Eb & Evb).
    { apply set_value_In. right. auto. }
    assert (a = j) as ->. { apply (proj1 (NoDup_nth_error idx) Hidx); [apply nth_error_Some; congruence|congruence]. }
    assert (b = j) as ->. { apply (proj1 (NoDup_nth_error idx) Hidx); [apply nth_error_Some; congruence|congruence]. }
    congruence.
Qed.

(** ** The returned functions *)

Section Inputs.
  Variables (qr : qr_function) (nan : R) (tfunc : dict (list R) -> vec -> vec).
  Variables (grad : grad_function) (jax_attribute : string -> option grad_function).
  Variables (md : model_dict) (df : frame R) (jt : string) (mi : maximization_inputs).
  Hypothesis E : get_maximization_inputs qr nan tfunc grad jax_attribute md df jt = Ok mi.

  Lemma inputs_parts : exists p ar jac,
    process_model md = Ok p /\
    process_data 1 req df (p_labels p) (p_update p) (p_anch p) true = Ok ar /\
    jax_attribute jt = Some jac /\
    map fst (mi_params_template mi) = params_index_of p /\
    (forall params, mi_loglike mi params
       = do v <- get_params_vec params (params_index_of p); log_likelihood qr nan tfunc p ar false v) /\
    (forall params, mi_gradient mi params
       = do v <- get_params_vec params (params_index_of p);
         do r <- differentiated qr nan tfunc grad p ar v; Ok (fst r)) /\
    (forall params, mi_jacobian mi params
       = do v <- get_params_vec params (params_index_of p);
         do r <- differentiated qr nan tfunc jac p ar v; Ok (fst r)) /\
    (forall params, mi_loglike_and_gradient mi params
       = do v <- get_params_vec params (params_index_of p);
         do r <- differentiated qr nan tfunc grad p ar v; Ok (snd r, fst r)) /\
    loglike_function qr nan tfunc md df false = Ok (mi_loglike mi) /\
    debug_loglike qr nan tfunc md df = Ok (mi_debug_loglike mi) /\
    mi_constraints mi = get_constraints p /\ mi_params_template mi = params_template p.
  Proof.
    unfold get_maximization_inputs in E. destruct (process_model md) as [p|e] eqn:Hp; [|discriminate E].
    cbn [rbind] in E. destruct (process_data _ _ _ _ _ _ _) as [ar|e] eqn:Har; [|discriminate E].
    cbn [rbind] in E. destruct (jax_attribute jt) as [jac|] eqn:Hj; [|discriminate E].
    cbn [rbind] in E. injection E as <-. exists p, ar, jac. cbn [mi_loglike mi_gradient mi_jacobian mi_loglike_and_gradient mi_params_template mi_constraints mi_debug_loglike].
    split; [reflexivity|]. split; [exact Har|]. split; [reflexivity|].
    split; [rewrite params_template_eq, map_map; apply map_id|].
    do 4 (split; [reflexivity|]). split; [|split; [|split; reflexivity]].
    - unfold loglike_function. rewrite Hp. cbn [rbind]. rewrite Har. reflexivity.
    - unfold debug_loglike. rewrite Hp. cbn [rbind]. rewrite Har. reflexivity.
  Qed.
End Inputs.

Lemma idx_labels_unique md p : wf_dicts md -> good_names md -> process_model md = Ok p -> NoDup (params_index_of p).
Proof. intros Hwf Hg Hp. exact (idx_NoDup md p Hwf Hg Hp). Qed.

(** * C98 *)

(** The gradient and the Jacobian have one entry for each row of the params template,
    and entry [k] is the partial derivative of the value of loglike with respect to the
    parameter in row [k], wherever it exists. loglike_and_gradient returns the pair of what
    loglike and gradient return. All fail exactly if loglike fails, with the same error. *)
Theorem C98_gradient :
  forall qr nan tfunc grad jax_attribute md df jt mi params,
    correct_jax grad jax_attribute -> jt = "jacrev"%string \/ jt = "jacfwd"%string ->
    wf_dicts md -> good_names md ->
    get_maximization_inputs qr nan tfunc grad jax_attribute md df jt = Ok mi ->
    NoDup (map fst params) ->
    (forall e, mi_loglike mi params = Err e ->
       mi_gradient mi params = Err e /\ mi_jacobian mi params = Err e /\
       mi_loglike_and_gradient mi params = Err e) /\
    (forall out, mi_loglike mi params = Ok out ->
       exists g j, mi_gradient mi params = Ok g /\ mi_jacobian mi params = Ok j /\
         mi_loglike_and_gradient mi params = Ok (out, g) /\
         length g = length (mi_params_template mi) /\ length j = length (mi_params_template mi) /\
         forall k lb bound d, nth_error (mi_params_template mi) k = Some (lb, bound) ->
           partial_derivative (mi_loglike mi) params lb d ->
           nth_error g k = Some d /\ nth_error j k = Some d).
Proof.
  intros qr nan tfunc grad jax_attribute md df jt mi params (Hg & Hr & Hf) Hjt Hwf Hgn E Hnd.
  destruct (inputs_parts _ _ _ _ _ _ _ _ _ E) as (p & ar & jac & Hp & Har & Hj & Ht & EL & EG & EJ & ELG & _).
  assert (Hjac : correct_gradient jac).
  { destruct Hjt as [->| ->]; [destruct Hr as (d & Ed & Hd)|destruct Hf as (d & Ed & Hd)]; rewrite Ed in Hj; injection Hj as <-; exact Hd. }
  pose proof (idx_labels_unique md p Hwf Hgn Hp) as Hidx.
  rewrite EG, EJ, ELG. split.
  - intros e He. rewrite EL in He.
    destruct (get_params_vec params (params_index_of p)) as [v|e'] eqn:Ev; cbn [rbind] in He |- *;
      [|injection He as ->; auto].
    unfold differentiated. rewrite He. cbn [rbind]. auto.
  - intros out Ho. pose proof Ho as Ho'. rewrite EL in Ho'.
    destruct (get_params_vec params (params_index_of p)) as [v|e'] eqn:Ev; cbn [rbind] in Ho' |- *; [|discriminate Ho'].
    unfold differentiated. rewrite Ho'. cbn [rbind fst snd].
    set (f := scalar_loglike qr nan tfunc p ar).
    destruct (C13_errors R params (params_index_of p) Hnd) as (_ & _ & H3). destruct (H3 v Ev) as [Hlen Hlab].
    assert (Htl : length (mi_params_template mi) = length v) by now rewrite Hlen, <- Ht, map_length.
    exists (grad f v), (jac f v). do 3 (split; [reflexivity|]). rewrite Htl.
    split; [apply Hg|]. split; [apply Hjac|].
    intros k lb bound d Hk (x & Hin & Hd).
    assert (Hk' : nth_error (params_index_of p) k = Some lb).
    { rewrite <- Ht. now rewrite (map_nth_error fst _ _ Hk). }
    assert (Hx : nth_error v k = Some x).
    { destruct (Hlab lb x Hin) as (a & Ea & Eva).
      assert (a = k) as ->; [|exact Eva].
      apply (proj1 (NoDup_nth_error _) Hidx); [apply nth_error_Some; congruence|congruence]. }
    assert (Hd' : is_derive (fun y : R => f (put k y v)) x d).
    { eapply is_derive_ext; [|exact Hd]. intros y. unfold value_along, f, scalar_loglike. rewrite EL.
      rewrite (set_value_vec params _ v lb k y Hnd Hidx Ev Hk'). reflexivity. }
    split; [exact (proj2 (Hg f v) k x d Hx Hd')|exact (proj2 (Hjac f v) k x d Hx Hd')].
Qed.
Print Assumptions C98_gradient.

(** The dictionary contains the functions, constraints and the template that the other
    properties are about; an unknown type of Jacobian is an AttributeError. *)
Theorem C98_dictionary :
  forall qr nan tfunc grad jax_attribute md df jt,
    (forall mi, get_maximization_inputs qr nan tfunc grad jax_attribute md df jt = Ok mi ->
       loglike_function qr nan tfunc md df false = Ok (mi_loglike mi) /\
       debug_loglike qr nan tfunc md df = Ok (mi_debug_loglike mi) /\
       exists p, process_model md = Ok p /\ mi_constraints mi = get_constraints p /\
         mi_params_template mi = params_template p) /\
    (forall f, loglike_function qr nan tfunc md df false = Ok f ->
       (jax_attribute jt <> None ->
          exists mi, get_maximization_inputs qr nan tfunc grad jax_attribute md df jt = Ok mi /\ mi_loglike mi = f) /\
       (jax_attribute jt = None ->
          get_maximization_inputs qr nan tfunc grad jax_attribute md df jt = Err AttributeError)).
Proof.
  intros qr nan tfunc grad jax_attribute md df jt. split.
  - intros mi E. destruct (inputs_parts _ _ _ _ _ _ _ _ _ E) as (p & ar & jac & Hp & _ & _ & _ & _ & _ & _ & _ & L & D & C & T).
    eauto 8.
  - intros f Hf. unfold loglike_function in Hf. unfold get_maximization_inputs.
    destruct (process_model md) as [p|e]; [|discriminate Hf]. cbn [rbind] in Hf |- *.
    destruct (process_data _ _ _ _ _ _ _) as [ar|e]; [|discriminate Hf]. cbn [rbind] in Hf |- *.
    injection Hf as <-. split; intros Hj.
    + destruct (jax_attribute jt) as [jac|]; [|contradiction]. eexists. split; reflexivity.
    + rewrite Hj. reflexivity.
Qed.
Print Assumptions C98_dictionary.

(** The gradient and the Jacobian do not depend on the order of the rows of params:
    they always follow the order of the template. *)
Theorem C98_row_order :
  forall qr nan tfunc grad jax_attribute md df jt mi params params',
    get_maximization_inputs qr nan tfunc grad jax_attribute md df jt = Ok mi ->
    NoDup (map fst params) -> Permutation params params' ->
    mi_gradient mi params' = mi_gradient mi params /\ mi_jacobian mi params' = mi_jacobian mi params /\
    mi_loglike_and_gradient mi params' = mi_loglike_and_gradient mi params.
Proof.
  intros qr nan tfunc grad jax_attribute md df jt mi params params' E Hnd Hperm.
  destruct (inputs_parts _ _ _ _ _ _ _ _ _ E) as (p & ar & jac & Hp & Har & Hj & Ht & EL & EG & EJ & ELG & _).
  rewrite !EG, !EJ, !ELG, (C13_row_order R params params' (params_index_of p) Hnd Hperm). auto.
Qed.
Print Assumptions C98_row_order.

Lemma is_derive_rsum n (f : nat -> R -> R) (d : nat -> R) x :
  (forall i, (i < n)%nat -> is_derive (f i) x (d i)) ->
  is_derive (fun y => rsum n (fun i => f i y)) x (rsum n d).
Proof.
  induction n as [|n IH]; intros H.
  - cbn [rsum]. apply (is_derive_const (K := R_AbsRing) (V := R_NormedModule) 0).
  - cbn [rsum]. apply (is_derive_plus (K := R_AbsRing) (V := R_NormedModule) (fun y => rsum n (fun i => f i y)) (f n)).
    + apply IH. intros i Hi. apply H. lia.
    + apply H. lia.
Qed.

(** The gradient is the sum of the derivatives of the contributions of the individuals. *)
Theorem C98_sum_over_individuals :
  forall qr nan tfunc grad jax_attribute md p n df ids lv ar v ps jt mi params out,
    correct_jax grad jax_attribute ->
    get_maximization_inputs qr nan tfunc grad jax_attribute md df jt = Ok mi ->
    likelihood_setting md p n df ids lv ar v ps ->
    NoDup (map fst params) -> mi_loglike mi params = Ok out ->
    exists g, mi_gradient mi params = Ok g /\
      forall k lb bound x (d : nat -> R), nth_error (mi_params_template mi) k = Some (lb, bound) -> In (lb, x) params ->
        (forall i, (i < length ids)%nat -> is_derive (contribution_along (mi_loglike mi) params lb i) x (d i)) ->
        nth_error g k = Some (rsum (length ids) d).
Proof.
  intros qr nan tfunc grad jax_attribute md p n df ids lv ar v ps jt mi params out Hjax E H Hnd Ho.
  destruct (inputs_parts _ _ _ _ _ _ _ _ _ E) as (p' & ar' & jac & Hp & Har & Hj & Ht & EL & EG & EJ & ELG & _).
  assert (Hp' : process_model md = Ok p) by apply H. rewrite Hp in Hp'. injection Hp' as ->.
  assert (Har' : process_data 1 req df (p_labels p) (p_update p) (p_anch p) true = Ok ar) by apply H.
  rewrite Har in Har'. injection Har' as ->.
  assert (Hwf : wf_dicts md) by apply H. assert (Hgn : good_names md) by apply H.
  pose proof (idx_labels_unique md p Hwf Hgn Hp) as Hidx.
  pose proof Ho as Ho'. rewrite EL in Ho'.
  destruct (get_params_vec params (params_index_of p)) as [u|e'] eqn:Ev; cbn [rbind] in Ho'; [|discriminate Ho'].
  rewrite EG, Ev. cbn [rbind]. unfold differentiated. rewrite Ho'. cbn [rbind fst].
  eexists. split; [reflexivity|]. intros k lb bound x d Hk Hin Hd.
  destruct (C13_errors R params (params_index_of p) Hnd) as (_ & _ & H3). destruct (H3 u Ev) as [Hlen Hlab].
  assert (Hk' : nth_error (params_index_of p) k = Some lb).
  { rewrite <- Ht. now rewrite (map_nth_error fst _ _ Hk). }
  assert (Hx : nth_error u k = Some x).
  { destruct (Hlab lb x Hin) as (a & Ea & Eva).
    assert (a = k) as ->; [|exact Eva].
    apply (proj1 (NoDup_nth_error _) Hidx); [apply nth_error_Some; congruence|congruence]. }
  assert (Hval : forall y : R, rsum (length ids) (fun i => contribution_along (mi_loglike mi) params lb i y)
                   = scalar_loglike qr nan tfunc p ar (put k y u)).
  2:{ eapply (proj1 Hjax); [exact Hx|].
      eapply is_derive_ext; [|exact (is_derive_rsum (length ids) _ d x Hd)]. intros y. exact (Hval y). }
  clear Hd. intros y. unfold scalar_loglike, contribution_along.
  rewrite EL, (set_value_vec params _ u lb k y Hnd Hidx Ev Hk'). cbn [rbind].
  destruct (log_likelihood qr nan tfunc p ar false (put k y u)) as [o|e] eqn:Eo.
  2:{ apply rsum_zero. intros i _. reflexivity. }
  assert (Hkl : (k < length u)%nat) by (apply nth_error_Some; congruence).
  assert (Hpl : length (put k y u) = length (params_index_of p)) by now rewrite put_length.
  destruct (parse_for 0 1 ln p (put k y u) (length ids)) as [ps'|e] eqn:Eps.
  - assert (H' : likelihood_setting md p n df ids lv ar (put k y u) ps').
    { destruct H as (H1 & H2 & H4 & _ & _). split; [exact H1|]. split; [exact H2|]. split; [exact H4|]. auto. }
    destruct (C42_sum_of_contributions _ _ _ _ _ _ _ _ _ _ _ _ _ _ H' Eo) as [S _]. now rewrite S.
  - exfalso. unfold log_likelihood in Eo. destruct (ar_shapes md p n df ids lv ar v ps H) as (_ & _ & Hobs).
    rewrite Hobs, Eps in Eo. discriminate Eo.
Qed.
Print Assumptions C98_sum_over_individuals.

(** ** An example *)

(** Jax as the contract describes it. *)
Definition true_gradient : grad_function :=
  fun f v => map (fun k => Derive (fun y : R => f (put k y v)) (nth k v 0)) (seq 0 (length v)).

Lemma true_gradient_correct : correct_gradient true_gradient.
Proof.
  intros f v. unfold true_gradient. split; [now rewrite map_length, seq_length|].
  intros k x d Hk Hd. assert (Hl : (k < length v)%nat) by (apply nth_error_Some; congruence).
  assert (Hs : nth_error (seq 0 (length v)) k = Some k).
  { rewrite nth_error_nth' with (d := O) by (now rewrite seq_length). now rewrite seq_nth. }
  rewrite (map_nth_error _ _ _ Hs). f_equal. rewrite (nth_error_nth _ _ 0 Hk). now apply is_derive_unique.
Qed.

Lemma true_jax : correct_jax true_gradient (fun _ => Some true_gradient).
Proof. split; [exact true_gradient_correct|]. split; eexists; (split; [reflexivity|exact true_gradient_correct]). Qed.

(** One factor that is measured once, in the first of two periods; two individuals with
    the values -1 and 1. *)
Definition tiny_model : model_dict :=
  mk_md [("fac", mk_factor [["y"]; []] (TStr "linear") None)]%string None None None None
    (Some (mk_opts None None None None (Some None) None None None)).
Definition tiny_p : processed := get_ok (process_model tiny_model) small_p.
Lemma tiny_accepted : process_model tiny_model = Ok tiny_p.
Proof. vm_compute. reflexivity. Qed.

Definition tiny_frame {V} (a b : V) : frame V :=
  mk_frame ["y"]%string [1; 2]%Z [0; 1]%Z
    [mk_drow 1 0 (fun c => if String.eqb c "y" then Some a else None); mk_drow 1 1 (fun _ => None);
     mk_drow 2 0 (fun c => if String.eqb c "y" then Some b else None); mk_drow 2 1 (fun _ => None)].
Definition tiny_df : frame R := tiny_frame (-1) 1.

Lemma tiny_good_names : good_names tiny_model.
Proof.
  unfold good_names, without_char. repeat split.
  - repeat constructor; simpl; intuition discriminate.
  - simpl. intros f H. intuition subst; simpl in *; intuition discriminate.
  - simpl in H. intuition subst; simpl in *; intuition discriminate.
  - simpl in *. intuition subst; intuition discriminate.
  - intros g. simpl in H. intuition subst; discriminate.
  - repeat constructor; simpl; intuition.
  - simpl. intuition discriminate.
  - intros f fs n names [[= <- <-]|[]] E; simpl in E; discriminate.
Qed.

Lemma tiny_setting : data_setting tiny_model tiny_p 2 tiny_df [1; 2]%Z [0; 1]%Z.
Proof.
  split; [|split; [exact tiny_accepted|split; [|split; [|split; [|split]]]]].
  - split; [repeat constructor; simpl; intuition|]. intros a o H. discriminate.
  - split; [eexists _, _; split; [left; reflexivity|reflexivity]|].
    intros f fs [[= <- <-]|[]]. simpl. lia.
  - split; [constructor|]. intros fo [].
  - intros r Hr. repeat (destruct Hr as [<-|Hr]; [simpl; tauto|]). destruct Hr.
  - split; [repeat constructor|]. intros z. split.
    + intros [<-|[<-|[]]].
      * eexists. split; [left; reflexivity|reflexivity].
      * eexists. split; [do 2 right; left; reflexivity|reflexivity].
    + intros (r & Hr & <-). repeat (destruct Hr as [<-|Hr]; [simpl; tauto|]). destruct Hr.
  - split; [repeat constructor|]. intros z. reflexivity.
Qed.

(** Intercept [a] and standard deviation [c] of the measurement, zero mean and unit
    variance of the factor. *)
Definition tiny_params (a c : R) : list R := [a; 1; c; 1; 0; 1; 1; 1; 0].

Lemma tiny_parse (A : Type) (zero one : A) (f : A -> A) (a b c d e g h i j : A) :
  parse_for zero one f tiny_p [a; b; c; d; e; g; h; i; j] 2 =
  Ok (mk_parsed [[[e]]; [[e]]] [[[[h]]]; [[[h]]]] [[f g]; [f g]] [[a]] [[b]] [c] [[d]]
        [("fac"%string, [[i; j]])] [[one]; [one]] [[zero]; [zero]]).
Proof. vm_compute. reflexivity. Qed.

Lemma tiny_arrays (V : Type) (one : V) (eqb : V -> V -> bool) (a b : V) :
  eqb a b = false -> eqb b a = false -> eqb a a = true -> eqb b b = true -> eqb one one = true ->
  process_data one eqb (tiny_frame a b) (p_labels tiny_p) (p_update tiny_p) (p_anch tiny_p) true
  = Ok (mk_arrays [[Some a; Some b]] [[[Some one]; [Some one]]; [[Some one]; [Some one]]] [[[]; []]; [[]; []]]).
Proof. intros H1 H2 H3 H4 H5. vm_compute. rewrite ?H1, ?H2, ?H3, ?H4, ?H5. vm_compute. reflexivity. Qed.

Definition tiny_ar : arrays R :=
  mk_arrays [[Some (-1); Some 1]] [[[Some 1]; [Some 1]]; [[Some 1]; [Some 1]]] [[[]; []]; [[]; []]].

Lemma tiny_data :
  process_data 1 req tiny_df (p_labels tiny_p) (p_update tiny_p) (p_anch tiny_p) true = Ok tiny_ar.
Proof.
  apply tiny_arrays; try (apply req_spec; reflexivity).
  - destruct (req (-1) 1) eqn:E; [|reflexivity]. apply req_spec in E. lra.
  - destruct (req 1 (-1)) eqn:E; [|reflexivity]. apply req_spec in E. lra.
Qed.

Lemma tiny_likelihood_setting a c : exists ps, parse_for 0 1 ln tiny_p (tiny_params a c) 2 = Ok ps /\
    likelihood_setting tiny_model tiny_p 2 tiny_df [1; 2]%Z [0; 1]%Z tiny_ar (tiny_params a c) ps.
Proof.
  eexists. split; [apply tiny_parse|].
  split; [apply tiny_setting|]. split; [exact tiny_good_names|].
  split; [exact tiny_data|]. split; [vm_compute; reflexivity|apply tiny_parse].
Qed.

Definition tiny_value (a c : R) : R :=
  - (ln (2 * PI * (1 + c * c)) + (-1 - a) * (-1 - a) / (1 + c * c)) / 2
  + - (ln (2 * PI * (1 + c * c)) + (1 - a) * (1 - a) / (1 + c * c)) / 2.

Lemma contribution_single qr nan n nc inp b k t i z : correct_qr qr -> in_values inp k i = Some z ->
  re_contribution (snd (update_event qr nan 1 n nc inp false k t b)) i
  = ldens n (be_states b i 0%nat) (cov n (be_chols b i 0%nat)) (in_loadings inp k) (in_sd inp k)
      (dot nc (fun c => to_number nan (in_controls inp t i c)) (in_control_params inp k)) z.
Proof.
  intros Hqr Hz.
  exact (up_loglikes_ok qr Hqr nan 1 n nc (be_states b) (be_chols b) (in_loadings inp k) (in_control_params inp k)
    (in_sd inp k) (in_values inp k) (in_controls inp t) (be_logw b) i z Hz).
Qed.

Lemma tiny_loglike qr nan tfunc a c : correct_qr qr ->
  exists out, log_likelihood qr nan tfunc tiny_p tiny_ar false (tiny_params a c) = Ok out /\ out_value out = tiny_value a c.
Proof.
  intros Hqr. destruct (tiny_likelihood_setting a c) as (ps & Eps & Hs).
  assert (Hfit : shapes_fit (length [1; 2]%Z) (n_mixtures (p_dims tiny_p)) (n_observed (p_dims tiny_p)) = true).
  { apply shapes_fit_spec. right. left. reflexivity. }
  destruct (likelihood_events qr nan tfunc _ _ _ _ _ _ _ _ _ false Hs Hfit) as (recs & out & E & _ & Eo & Hr).
  exists out. split; [exact Eo|]. destruct Hr as (-> & _).
  assert (Hcode : code_events 0 (purposes (p_update tiny_p)) = [Measure 0 0]) by (vm_compute; reflexivity).
  rewrite Hcode in E.
  set (r := snd (update_event qr nan 1 1 1 (inputs_of ps tiny_ar) false 0 0 (initial_belief ps))).
  assert (Hrecs : recs = [r]).
  { change (Ok [r] = Ok recs) in E. congruence. }
  rewrite Hrecs.
  assert (Hclip : forall x, clip_with (p_options tiny_p) x = x) by reflexivity.
  assert (Hcon : forall i, contribution_of (p_options tiny_p) [r] i = re_contribution r i + 0).
  { intros i. unfold contribution_of. cbn [map]. rewrite Hclip. reflexivity. }
  change (length [1; 2]%Z) with 2%nat. cbn [rsum]. rewrite !Hcon. unfold r. clear r Hrecs Hcon E recs Hclip.
  rewrite (contribution_single qr nan 1 1 (inputs_of ps tiny_ar) (initial_belief ps) 0 0 0 (-1) Hqr eq_refl).
  rewrite (contribution_single qr nan 1 1 (inputs_of ps tiny_ar) (initial_belief ps) 0 0 1 1 Hqr eq_refl).
  pose proof (tiny_parse R 0 1 ln a 1 c 1 0 1 1 1 0) as Ep. unfold tiny_params in Eps. rewrite Eps in Ep.
  injection Ep as ->.
  unfold ldens, innovation_var, quad, mat_vec, dot, cov. cbn.
  unfold tiny_value. ring_simplify (0 + 1 * (0 + (0 + 1 * 1) * 1) + c * c).
  replace (c ^ 2 + 1) with (1 + c * c) by ring. ring_simplify (0 + 0 * 1 + (0 + 1 * a)). ring.
Qed.

Definition tiny_rows : list (label * R) := combine (params_index_of tiny_p) (tiny_params 0 1).
Definition swapped_rows : list (label * R) := rev tiny_rows.

Definition constant_label : label := (CControls, 0%nat, "y", "constant")%string.
Definition sd_label : label := (CMeasSds, 0%nat, "y", "-")%string.

Lemma tiny_labels : map fst tiny_rows = params_index_of tiny_p.
Proof. vm_compute. reflexivity. Qed.

Lemma tiny_rows_unique : NoDup (map fst tiny_rows).
Proof. apply has_dup_NoDup. vm_compute. reflexivity. Qed.

Lemma tiny_vec : get_params_vec tiny_rows (params_index_of tiny_p) = Ok (tiny_params 0 1).
Proof. vm_compute. reflexivity. Qed.

Lemma tiny_inputs qr nan tfunc grad jax_attribute : correct_jax grad jax_attribute -> exists mi,
  get_maximization_inputs qr nan tfunc grad jax_attribute tiny_model tiny_df "jacrev" = Ok mi /\
  (forall params, mi_loglike mi params
     = do v <- get_params_vec params (params_index_of tiny_p); log_likelihood qr nan tfunc tiny_p tiny_ar false v).
Proof.
  intros (_ & (d & Ed & _) & _). eexists. split.
  - unfold get_maximization_inputs. rewrite tiny_accepted. cbn [rbind]. rewrite tiny_data. cbn [rbind].
    rewrite Ed. cbn [rbind]. reflexivity.
  - reflexivity.
Qed.

Lemma tiny_along qr nan tfunc (f : list (label * R) -> result output) params lb k y : correct_qr qr ->
  (forall params, f params
     = do v <- get_params_vec params (params_index_of tiny_p); log_likelihood qr nan tfunc tiny_p tiny_ar false v) ->
  Permutation tiny_rows params ->
  nth_error (params_index_of tiny_p) k = Some lb ->
  forall a c, put k y (tiny_params 0 1) = tiny_params a c -> value_along f params lb y = tiny_value a c.
Proof.
  intros Hqr Hf Hperm Hk a c Hp. unfold value_along. rewrite Hf.
  assert (Hnd : NoDup (map fst params)) by (eapply Permutation_NoDup; [apply Permutation_map, Hperm|exact tiny_rows_unique]).
  rewrite (set_value_vec params (params_index_of tiny_p) (tiny_params 0 1) lb k y Hnd).
  - cbn [rbind]. rewrite Hp. destruct (tiny_loglike qr nan tfunc a c Hqr) as (out & -> & E). exact E.
  - rewrite <- tiny_labels. exact tiny_rows_unique.
  - rewrite (C13_row_order R tiny_rows params _ tiny_rows_unique Hperm). exact tiny_vec.
  - exact Hk.
Qed.

Lemma tiny_derivative_sd : is_derive (fun y : R => tiny_value 0 y) 1 (-1 / 2).
Proof.
  pose proof PI_RGT_0. unfold tiny_value. auto_derive.
  - repeat split; lra.
  - field. lra.
Qed.

Lemma tiny_derivative_constant : is_derive (fun y : R => tiny_value y 1) 0 0.
Proof. unfold tiny_value. auto_derive; [lra|field]. Qed.

(** The derivative with respect to the standard deviation of the measurement is -1/2,
    the one with respect to the intercept is zero. *)
Lemma tiny_partials qr nan tfunc (f : list (label * R) -> result output) params : correct_qr qr ->
  (forall params, f params
     = do v <- get_params_vec params (params_index_of tiny_p); log_likelihood qr nan tfunc tiny_p tiny_ar false v) ->
  Permutation tiny_rows params ->
  partial_derivative f params sd_label (-1 / 2) /\ partial_derivative f params constant_label 0.
Proof.
  intros Hqr Hf Hperm. split.
  - exists 1. split; [apply (Permutation_in _ Hperm); right; right; left; reflexivity|].
    eapply is_derive_ext; [|exact tiny_derivative_sd]. intros y. symmetry.
    apply (tiny_along qr nan tfunc f params sd_label 2 y Hqr Hf Hperm); reflexivity.
  - exists 0. split; [apply (Permutation_in _ Hperm); left; reflexivity|].
    eapply is_derive_ext; [|exact tiny_derivative_constant]. intros y. symmetry.
    apply (tiny_along qr nan tfunc f params constant_label 0 y Hqr Hf Hperm); reflexivity.
Qed.

Example C98_nonvacuous : forall qr nan tfunc, correct_qr qr -> exists mi out d,
  correct_jax true_gradient (fun _ => Some true_gradient) /\ wf_dicts tiny_model /\ good_names tiny_model /\
  get_maximization_inputs qr nan tfunc true_gradient (fun _ => Some true_gradient) tiny_model tiny_df "jacrev" = Ok mi /\
  NoDup (map fst tiny_rows) /\ mi_loglike mi tiny_rows = Ok out /\
  nth_error (mi_params_template mi) 2 = Some (sd_label, Some (1 # 1000)%Q) /\
  partial_derivative (mi_loglike mi) tiny_rows sd_label d /\ d <> 0.
Proof.
  intros qr nan tfunc Hqr. destruct (tiny_inputs qr nan tfunc _ _ true_jax) as (mi & E & EL).
  destruct (tiny_loglike qr nan tfunc 0 1 Hqr) as (out & Eo & _).
  exists mi, out, (-1 / 2). split; [exact true_jax|]. split; [apply tiny_setting|]. split; [exact tiny_good_names|].
  split; [exact E|]. split; [exact tiny_rows_unique|].
  split; [rewrite EL, tiny_vec; exact Eo|]. split.
  - destruct (inputs_parts _ _ _ _ _ _ _ _ _ E) as (p & _ & _ & Hp & _ & _ & _ & _ & _ & _ & _ & _ & _ & _ & T).
    rewrite tiny_accepted in Hp. injection Hp as <-. rewrite T. vm_compute. reflexivity.
  - split; [|lra]. apply (tiny_partials qr nan tfunc _ tiny_rows Hqr EL). reflexivity.
Qed.

(** The entries do not follow the rows that the user passes, although loglike accepts
    them in any order. *)
Theorem C98_rows_refuted :
  forall qr nan tfunc grad jax_attribute, correct_qr qr -> correct_jax grad jax_attribute ->
  exists md df mi params g k lb x d,
    get_maximization_inputs qr nan tfunc grad jax_attribute md df "jacrev" = Ok mi /\
    mi_gradient mi params = Ok g /\ nth_error params k = Some (lb, x) /\
    partial_derivative (mi_loglike mi) params lb d /\ nth_error g k <> Some d.
Proof.
  intros qr nan tfunc grad jax_attribute Hqr Hjax.
  destruct (tiny_inputs qr nan tfunc grad jax_attribute Hjax) as (mi & E & EL).
  set (params := [nth 2 tiny_rows (sd_label, 0); nth 1 tiny_rows (sd_label, 0); nth 0 tiny_rows (sd_label, 0)] ++ skipn 3 tiny_rows).
  assert (Hperm : Permutation tiny_rows params).
  { change tiny_rows with ([nth 0 tiny_rows (sd_label, 0); nth 1 tiny_rows (sd_label, 0); nth 2 tiny_rows (sd_label, 0)] ++ skipn 3 tiny_rows).
    apply Permutation_app_tail. exact (Permutation_rev [_; _; _]). }
  assert (Hnd : NoDup (map fst params)) by (eapply Permutation_NoDup; [apply Permutation_map, Hperm|exact tiny_rows_unique]).
  destruct (tiny_loglike qr nan tfunc 0 1 Hqr) as (out & Eo & _).
  assert (Ho : mi_loglike mi params = Ok out).
  { rewrite EL, (C13_row_order R tiny_rows params _ tiny_rows_unique Hperm), tiny_vec. exact Eo. }
  destruct (C98_gradient qr nan tfunc grad jax_attribute tiny_model tiny_df "jacrev" mi params Hjax (or_introl eq_refl)
    (proj1 tiny_setting) tiny_good_names E Hnd) as [_ H].
  destruct (H out Ho) as (g & j & Eg & _ & _ & _ & _ & Hd).
  destruct (tiny_partials qr nan tfunc (mi_loglike mi) params Hqr EL Hperm) as [P1 P2].
  assert (Ht : nth_error (mi_params_template mi) 0 = Some (constant_label, None)).
  { destruct (inputs_parts _ _ _ _ _ _ _ _ _ E) as (p & _ & _ & Hp & _ & _ & _ & _ & _ & _ & _ & _ & _ & _ & T).
    rewrite tiny_accepted in Hp. injection Hp as <-. rewrite T. vm_compute. reflexivity. }
  destruct (Hd 0%nat constant_label None 0 Ht P2) as [Hg0 _].
  exists tiny_model, tiny_df, mi, params, g, 0%nat, sd_label, 1, (-1 / 2).
  split; [exact E|]. split; [exact Eg|]. split; [reflexivity|]. split; [exact P1|].
  rewrite Hg0. intros F. injection F as F. lra.
Qed.
Print Assumptions C98_rows_refuted.
