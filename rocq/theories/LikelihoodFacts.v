(** The scan of the likelihood function follows the events of its iterations. *)
Require Import Reals Qreals String Arith ZArith Bool List Lia FunctionalExtensionality.
From Verif Require Import PyBase ListFacts ModelSpec ProcessModel CheckModel SpecModel SpecParse
  ParamsIndex ParseParams ProcessData SpecData RSum Kalman Clipping Likelihood SpecLikelihood
  PredictFacts ScheduleFacts.
Import ListNotations.
Open Scope R_scope.

(** ** Shapes in the predict step *)

Definition shapes_fit (n_obs nm no : nat) : bool :=
  (n_obs =? 0)%nat || (no =? 0)%nat || (nm =? 1)%nat.

Lemma shapes_fit_spec n_obs nm no :
  shapes_fit n_obs nm no = true <-> (n_obs = 0 \/ no = 0 \/ nm = 1)%nat.
Proof. unfold shapes_fit. rewrite !orb_true_iff, !Nat.eqb_eq. tauto. Qed.

Lemma predict_fits qr n_obs nm n no st ch c w f s a b o :
  shapes_fit n_obs nm no = true ->
  exists r, kalman_predict qr n_obs nm n no st ch c w f s a b o = Ok r.
Proof.
  intros H. apply shapes_fit_spec in H.
  destruct (sigma_points_ok n_obs nm n no st ch c o H) as (pts & E & _).
  unfold kalman_predict. rewrite E. cbn [rbind]. eauto.
Qed.

Lemma predict_misfits qr n_obs nm n no st ch c w f s a b o :
  shapes_fit n_obs nm no = false ->
  kalman_predict qr n_obs nm n no st ch c w f s a b o = Err ShapeError.
Proof.
  intros H. unfold kalman_predict. rewrite sigma_points_err; [reflexivity| | |].
  - destruct n_obs; [discriminate|lia].
  - destruct n_obs; [discriminate|]. destruct no; [discriminate|lia].
  - intros ->. unfold shapes_fit in H. rewrite orb_true_r in H. discriminate.
Qed.

(** ** Indices *)

Lemma wrap_nat {A} (d : A) l t : wrap d l (Z.of_nat t) = nth t l d.
Proof.
  unfold wrap. rewrite (proj2 (Z.ltb_ge _ _)) by lia. now rewrite Nat2Z.id.
Qed.

Lemma wrap_last {A} (d : A) l : (1 <= length l)%nat -> wrap d l (-1) = nth (length l - 1) l d.
Proof. intros H. unfold wrap. cbn [Z.ltb Z.compare]. f_equal. lia. Qed.

Lemma wrap_iteration {A} (d : A) (l : list A) n t : (1 <= n)%nat -> length l = n ->
  wrap d l (iteration_to_period (n - 1) t) = nth t l d.
Proof.
  intros H E. unfold iteration_to_period. destruct (t =? n - 1)%nat eqn:Q.
  - apply Nat.eqb_eq in Q. rewrite wrap_last by lia. now rewrite E, Q.
  - apply wrap_nat.
Qed.

Lemma nth_predict l : forall k,
  nth k (is_predict_iteration l) false =
  match nth_error l k, nth_error l (S k) with
  | Some a, Some b => (b =? S a)%nat
  | _, _ => false
  end.
Proof.
  induction l as [|t l IH]; intros k; [destruct k; reflexivity|].
  destruct l as [|t' l].
  - destruct k as [|[|k]]; reflexivity.
  - destruct k as [|k].
    + cbn. destruct (Z.eqb_spec (Z.of_nat t - Z.of_nat t') (-1)) as [H|H]; symmetry.
      * apply Nat.eqb_eq. lia.
      * apply Nat.eqb_neq. lia.
    + change (is_predict_iteration (t :: t' :: l))
        with (Z.eqb (Z.of_nat t - Z.of_nat t') (-1) :: is_predict_iteration (t' :: l)).
      exact (IH k).
Qed.

Lemma last_range n : (1 <= n)%nat -> last (range n) 0%nat = (n - 1)%nat.
Proof.
  intros H. destruct n as [|n]; [lia|]. unfold range. rewrite seq_S, last_last. lia.
Qed.

(** ** Scan and run *)

Section Scan.
  Variable qr : qr_function.
  Variable nan : R.
  Variable tfunc : dict (list R) -> vec -> vec.
  Variables (d : dims) (n_obs n : nat) (kappa : R) (ps : parsed R) (ar : arrays R) (debug : bool).
  Variable u : list urow.
  Hypothesis Hn : (1 <= n)%nat.
  Hypothesis Hctrl : length (ar_controls ar) = n.
  Hypothesis Hper : forall r, In r u -> (u_period r < n)%nat.

  Definition the_arg (k : nat) : loop_arg :=
    mk_loop (iteration_to_period (n - 1) (nth k (map u_period u) 0%nat))
      (arr2 (ps_loadings ps) k) (arr2 (ps_controls ps) k) (arr1 (ps_meas_sds ps) k)
      (oarr1 (nth k (ar_meas ar) []))
      (nth k (map is_measurement_row u) false)
      (nth k (is_predict_iteration (map u_period u)) false).

  Definition carry_of (b : belief) : carry := mk_carry (be_states b) (be_chols b) (be_logw b).
  Definition iter_of (r : record) : iter_out :=
    mk_iter (re_contribution r)
      (if debug then Some (mk_udebug (re_residuals r) (re_residual_sds r) (re_logw r)) else None)
      (re_states r).

  Let inp := inputs_of ps ar.
  Let body := scan_body qr nan tfunc d n_obs kappa ps (ar_controls ar) (ar_observed ar) debug.
  Let the_scan := scan qr nan tfunc d n_obs kappa ps (ar_controls ar) (ar_observed ar) debug.
  Let the_run := run qr nan tfunc n_obs (n_mixtures d) (n_latent d) (n_observed d) (n_controls d) kappa inp.
  Let upd := update_event qr nan (n_mixtures d) (n_latent d) (n_controls d) inp.
  Let trans := transition_event qr nan tfunc n_obs (n_mixtures d) (n_latent d) (n_observed d) kappa inp.

  Hypothesis Hfit : shapes_fit n_obs (n_mixtures d) (n_observed d) = true.

  Definition next_transition (k : nat) (r : urow) : list event :=
    match nth_error u (S k) with
    | Some r' => if (u_period r' =? S (u_period r))%nat then [Transition (u_period r)] else []
    | None => []
    end.

  Lemma body_step k r b : nth_error u k = Some r ->
    exists b', body (carry_of b) (the_arg k)
               = Ok (carry_of b', iter_of (snd (upd (negb (is_measurement_row r)) k (u_period r) b))) /\
      match next_transition k r with
      | [] => b' = fst (upd (negb (is_measurement_row r)) k (u_period r) b)
      | _ => trans (u_period r) (fst (upd (negb (is_measurement_row r)) k (u_period r) b)) = Ok b'
      end.
  Proof.
    intros Hk.
    assert (Hr : In r u) by (eapply nth_error_In; eauto).
    assert (Ep : nth k (map u_period u) 0%nat = u_period r).
    { apply nth_of_nth_error. now apply map_nth_error. }
    assert (Em : nth k (map is_measurement_row u) false = is_measurement_row r).
    { apply nth_of_nth_error. now apply map_nth_error. }
    assert (Eq : nth k (is_predict_iteration (map u_period u)) false
                 = match nth_error u (S k) with
                   | Some r' => (u_period r' =? S (u_period r))%nat | None => false end).
    { rewrite nth_predict, (map_nth_error u_period k u Hk).
      destruct (nth_error u (S k)) as [r'|] eqn:E.
      - now rewrite (map_nth_error u_period _ u E).
      - apply nth_error_None in E. rewrite (proj2 (nth_error_None _ _)); [reflexivity|].
        now rewrite map_length. }
    assert (Enx : next_transition k r = if nth k (is_predict_iteration (map u_period u)) false
                                        then [Transition (u_period r)] else []).
    { rewrite Eq. unfold next_transition. destruct (nth_error u (S k)); [|reflexivity]. reflexivity. }
    rewrite Enx. clear Enx.
    unfold body, scan_body, the_arg. cbn [la_period la_loadings la_control_params la_meas_sd
      la_measurements la_is_measurement la_is_predict ca_states ca_chols ca_logw carry_of].
    rewrite Em. rewrite (wrap_iteration [] (ar_controls ar) n _ Hn Hctrl), Ep.
    match goal with |- context [kalman_update ?q ?x ?a ?b0 ?c ?e ?f ?g ?h ?i ?j ?l ?m] =>
      set (up := kalman_update q x a b0 c e f g h i j l m) end.
    set (states := if is_measurement_row r then up_states up else be_states b).
    set (chols := if is_measurement_row r then up_chols up else be_chols b).
    assert (Eupd : upd (negb (is_measurement_row r)) k (u_period r) b
                   = (mk_belief states chols (up_logw up),
                      mk_record (up_loglikes up) states (up_logw up) (up_residuals up)
                                (up_residual_sds up))).
    { unfold upd, update_event, inp, inputs_of. cbn [in_loadings in_control_params in_sd in_values in_controls].
      fold up. unfold states, chols. destruct (is_measurement_row r); reflexivity. }
    rewrite Eupd. cbn [fst snd].
    destruct (nth k (is_predict_iteration (map u_period u)) false) eqn:Epr.
    - assert (Hlt : (u_period r < n - 1)%nat).
      { destruct (nth_error u (S k)) as [r'|] eqn:E; [|congruence].
        symmetry in Eq. apply Nat.eqb_eq in Eq. pose proof (Hper r' (nth_error_In _ _ E)). lia. }
      assert (Eit : iteration_to_period (n - 1) (u_period r) = Z.of_nat (u_period r)).
      { unfold iteration_to_period. now rewrite (proj2 (Nat.eqb_neq _ _)) by lia. }
      rewrite Eit.
      match goal with |- context [rbind (kalman_predict ?a1 ?a2 ?a3 ?a4 ?a5 ?a6 ?a7 ?a8 ?a9 ?a10 ?a11 ?a12 ?a13 ?a14) _] =>
        destruct (predict_fits a1 a2 a3 a4 a5 a6 a7 a8 a9 a10 a11 a12 a13 a14 Hfit) as [pr Epd];
        rewrite Epd end.
      cbn [rbind]. exists (mk_belief (fst pr) (snd pr) (up_logw up)). split; [reflexivity|].
      unfold trans, transition_event, inp, inputs_of. cbn [be_states be_chols be_logw in_coeffs in_shock_sds in_scaling
        in_constants in_observed].
      match goal with |- rbind ?m _ = _ => assert (Em' : m = Ok pr) end.
      { rewrite <- Epd. f_equal.
        - f_equal. apply map_ext. intros [f a]. cbn [fst snd]. now rewrite wrap_nat.
        - now rewrite wrap_nat.
        - apply functional_extensionality. intros r0. rewrite <- Nat2Z.inj_add, wrap_nat. reflexivity.
        - apply functional_extensionality. intros r0. rewrite <- Nat2Z.inj_add, wrap_nat. reflexivity.
        - apply functional_extensionality. intros i. apply functional_extensionality. intros f.
          now rewrite wrap_nat. }
      rewrite Em'. reflexivity.
    - match goal with |- context [rbind (kalman_predict ?a1 ?a2 ?a3 ?a4 ?a5 ?a6 ?a7 ?a8 ?a9 ?a10 ?a11 ?a12 ?a13 ?a14) _] =>
        destruct (predict_fits a1 a2 a3 a4 a5 a6 a7 a8 a9 a10 a11 a12 a13 a14 Hfit) as [pr Epd];
        rewrite Epd end.
      cbn [rbind]. eexists. split; [|reflexivity]. reflexivity.
  Qed.

  Lemma scan_run m : forall k b, (k + m = length u)%nat ->
    exists ca recs, the_scan (carry_of b) (map the_arg (seq k m)) = Ok (ca, map iter_of recs) /\
      the_run (code_events k (purposes (skipn k u))) b = Ok recs /\ length recs = m.
  Proof.
    induction m as [|m IH]; intros k b Hk.
    - exists (carry_of b), []. split; [reflexivity|]. rewrite skipn_all2 by lia. split; reflexivity.
    - destruct (nth_error u k) as [r|] eqn:Er.
      2:{ apply nth_error_None in Er. lia. }
      assert (Esk : skipn k u = r :: skipn (S k) u).
      { clear -Er. revert k Er. induction u as [|x l IH]; intros [|k] Er; try discriminate.
        - injection Er as ->. reflexivity.
        - simpl in Er. cbn [skipn]. rewrite (IH k Er). reflexivity. }
      assert (Eco : code_events k (purposes (skipn k u))
                    = ev k (u_period r, negb (is_measurement_row r))
                      :: next_transition k r ++ code_events (S k) (purposes (skipn (S k) u))).
      { rewrite Esk. unfold purposes. cbn [map code_events fst]. f_equal. f_equal.
        unfold next_transition.
        assert (nth_error u (S k) = hd_error (skipn (S k) u)) as ->.
        { clear. revert k. induction u as [|x l IH]; intros k; [destruct k; reflexivity|].
          destruct k as [|k]; [destruct l; reflexivity|]. exact (IH k). }
        destruct (skipn (S k) u); reflexivity. }
      destruct (body_step k r b Er) as (b' & Eb & Hb').
      destruct (IH (S k) b' ltac:(lia)) as (ca & recs & Es & Er' & El).
      exists ca, (snd (upd (negb (is_measurement_row r)) k (u_period r) b) :: recs).
      split; [|split].
      + cbn [seq map]. unfold the_scan. cbn [scan]. fold body. rewrite Eb. cbn [rbind fst snd].
        unfold the_scan in Es. rewrite Es. reflexivity.
      + rewrite Eco. unfold the_run, ev. cbn [snd fst].
        assert (run qr nan tfunc n_obs (n_mixtures d) (n_latent d) (n_observed d) (n_controls d) kappa inp
                  (next_transition k r ++ code_events (S k) (purposes (skipn (S k) u)))
                  (fst (upd (negb (is_measurement_row r)) k (u_period r) b)) = Ok recs) as Enext.
        { destruct (next_transition k r) as [|e l] eqn:En.
          - rewrite <- Hb'. exact Er'.
          - assert (e = Transition (u_period r) /\ l = []) as [-> ->].
            { unfold next_transition in En. destruct (nth_error u (S k)) as [r'|]; [|discriminate].
              destruct (u_period r' =? S (u_period r))%nat; [|discriminate]. injection En. auto. }
            cbn [app run]. fold trans. rewrite Hb'. cbn [rbind]. exact Er'. }
        destruct (is_measurement_row r); cbn [negb] in *; cbn [run]; fold upd; rewrite Enext; reflexivity.
      + simpl. now rewrite El.
  Qed.
End Scan.

Lemma rsum_sum_list {A} (l : list A) (d : A) (g : A -> R) :
  rsum (length l) (fun k => g (nth k l d)) = sum_list (map g l).
Proof.
  induction l as [|x l IH]; [reflexivity|]. cbn [length map sum_list fold_right].
  rewrite rsum_S_l. cbn [nth]. rewrite IH. reflexivity.
Qed.

(** If the shapes do not fit, the likelihood and every run with a transition fail. *)
Lemma scan_misfits qr nan tfunc d n_obs kappa ps controls observed debug ca a l :
  shapes_fit n_obs (n_mixtures d) (n_observed d) = false ->
  scan qr nan tfunc d n_obs kappa ps controls observed debug ca (a :: l) = Err ShapeError.
Proof.
  intros H. cbn [scan]. unfold scan_body. rewrite predict_misfits by assumption. reflexivity.
Qed.

Lemma run_misfits qr nan tfunc n_obs nm nl no nc kappa inp evs t : forall b,
  shapes_fit n_obs nm no = false -> In (Transition t) evs ->
  run qr nan tfunc n_obs nm nl no nc kappa inp evs b = Err ShapeError.
Proof.
  induction evs as [|e evs IH]; intros b H Hin; [destruct Hin|].
  destruct e as [k s|k s|s]; cbn [run].
  - destruct Hin as [Hin|Hin]; [discriminate|]. now rewrite (IH _ H Hin).
  - destruct Hin as [Hin|Hin]; [discriminate|]. now rewrite (IH _ H Hin).
  - unfold transition_event. rewrite predict_misfits by assumption. reflexivity.
Qed.
