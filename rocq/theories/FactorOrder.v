(** The filter with the latent factors in another order. *)
Require Import Reals Lra Lia Arith Bool Permutation List.
From Verif Require Import PyBase ListFacts RSum Kalman SpecKalman KalmanFacts KalmanOrder KalmanSeq PropsKalman Likelihood SpecLikelihood StateSpaceFacts.
Import ListNotations.
Open Scope R_scope.

(** ** Sums in another order *)

Definition reordering (n : nat) (s : nat -> nat) : Prop :=
  (forall a, (a < n)%nat -> (s a < n)%nat) /\
  forall a b, (a < n)%nat -> (b < n)%nat -> s a = s b -> a = b.

Lemma rsum_list n f : rsum n f = fold_right Rplus 0 (map f (seq 0 n)).
Proof.
  enough (G : forall s, rsum n (fun a => f (s + a)%nat) = fold_right Rplus 0 (map f (seq s n))) by exact (G O).
  induction n as [|n IH]; intros s; [reflexivity|]. rewrite rsum_S_l. cbn [seq map fold_right]. rewrite Nat.add_0_r. f_equal.
  rewrite <- IH. apply rsum_ext. intros a _. f_equal. lia.
Qed.

Lemma fold_plus_permutation l l' : Permutation l l' -> fold_right Rplus 0 l = fold_right Rplus 0 l'.
Proof. induction 1; cbn [fold_right]; lra. Qed.

Lemma NoDup_map_in {A B} (f : A -> B) l : (forall x y, In x l -> In y l -> f x = f y -> x = y) -> NoDup l -> NoDup (map f l).
Proof.
  induction l as [|a l IH]; intros Hf Hn; [constructor|]. apply NoDup_cons_iff in Hn as [Ha Hn]. cbn [map]. constructor.
  - intros F. apply in_map_iff in F as (b & E & Hb). apply Hf in E; [subst; now apply Ha|now right|now left].
  - apply IH; [|exact Hn]. intros x y Hx Hy. apply Hf; now right.
Qed.

Lemma reordering_permutation n s : reordering n s -> Permutation (map s (seq 0 n)) (seq 0 n).
Proof.
  intros [Hs Hi]. apply NoDup_Permutation_bis.
  - apply NoDup_map_in; [|apply seq_NoDup]. intros x y Hx Hy. apply in_seq in Hx, Hy. apply Hi; lia.
  - now rewrite map_length.
  - intros x Hx. apply in_map_iff in Hx as (a & <- & Ha). apply in_seq in Ha. apply in_seq. specialize (Hs a). lia.
Qed.

Lemma rsum_reorder n s f : reordering n s -> rsum n (fun a => f (s a)) = rsum n f.
Proof.
  intros H. rewrite !rsum_list. rewrite <- (map_map s f). apply fold_plus_permutation, Permutation_map, reordering_permutation, H.
Qed.

Section Reordered.
  Variables (n : nat) (s : nat -> nat).
  Hypothesis Hs : reordering n s.

  Definition vperm (x x' : vec) : Prop := forall a, (a < n)%nat -> x (s a) = x' a.
  Definition mperm (p p' : mat) : Prop := forall a b, (a < n)%nat -> (b < n)%nat -> p (s a) (s b) = p' a b.

  Lemma dot_perm x x' h h' : vperm x x' -> vperm h h' -> dot n x h = dot n x' h'.
  Proof.
    intros Hx Hh. unfold dot. rewrite <- (rsum_reorder n s (fun a => x a * h a) Hs). apply rsum_ext.
    intros a Ha. now rewrite (Hx a Ha), (Hh a Ha).
  Qed.

  Lemma mat_vec_perm p p' h h' : mperm p p' -> vperm h h' -> vperm (mat_vec n p h) (mat_vec n p' h').
  Proof.
    intros Hp Hh a Ha. unfold mat_vec. rewrite <- (rsum_reorder n s (fun b => p (s a) b * h b) Hs). apply rsum_ext.
    intros b Hb. now rewrite (Hp a b Ha Hb), (Hh b Hb).
  Qed.

  Lemma innovation_perm p p' h h' sd : mperm p p' -> vperm h h' -> innovation_var n p h sd = innovation_var n p' h' sd.
  Proof.
    intros Hp Hh. unfold innovation_var, quad. f_equal. apply (dot_perm h h' (mat_vec n p h) (mat_vec n p' h') Hh).
    now apply mat_vec_perm.
  Qed.

  Lemma cmean_perm x x' p p' h h' sd off z : vperm x x' -> mperm p p' -> vperm h h' ->
    vperm (conditional_mean n x p h sd off z) (conditional_mean n x' p' h' sd off z).
  Proof.
    intros Hx Hp Hh a Ha. unfold conditional_mean, gain.
    now rewrite (Hx a Ha), (mat_vec_perm p p' h h' Hp Hh a Ha), (innovation_perm p p' h h' sd Hp Hh), (dot_perm x x' h h' Hx Hh).
  Qed.

  Lemma ccov_perm p p' h h' sd : mperm p p' -> vperm h h' -> mperm (conditional_cov n p h sd) (conditional_cov n p' h' sd).
  Proof.
    intros Hp Hh a b Ha Hb. unfold conditional_cov, gain.
    rewrite (Hp a b Ha Hb), (mat_vec_perm p p' h h' Hp Hh a Ha), (innovation_perm p p' h h' sd Hp Hh). f_equal. f_equal.
    rewrite <- (rsum_reorder n s (fun c => h c * p c (s b)) Hs). apply rsum_ext. intros c Hc. now rewrite (Hh c Hc), (Hp c b Hc Hb).
  Qed.

  Lemma ldens_perm x x' p p' h h' sd off z : vperm x x' -> mperm p p' -> vperm h h' ->
    ldens n x p h sd off z = ldens n x' p' h' sd off z.
  Proof.
    intros Hx Hp Hh. unfold ldens. cbv zeta. now rewrite (innovation_perm p p' h h' sd Hp Hh), (dot_perm x x' h h' Hx Hh).
  Qed.
End Reordered.

(** ** Sequences of updates, with and without anchoring *)

Definition step (qr : qr_function) (nan : R) (nm n nc : nat) (controls : nat -> nat -> option R)
    (st : filter_state) (q : bool * measurement) : filter_state :=
  let r := update_with qr nan nm n nc controls st (snd q) in
  if fst q then mk_fstate (fs_states st) (fs_chols st) (fs_logw r) (fs_total r) else r.

Definition steps qr nan nm n nc controls := fold_left (step qr nan nm n nc controls).

Definition related_states (nm n : nat) (s : nat -> nat) (i : nat) (x y : filter_state) : Prop :=
  (forall m, (m < nm)%nat ->
     vperm n s (fs_states x i m) (fs_states y i m) /\
     mperm n s (cov n (fs_chols x i m)) (cov n (fs_chols y i m)) /\
     fs_logw x i m = fs_logw y i m) /\
  fs_total x i = fs_total y i.

Section Steps.
  Variables qr qr' : qr_function.
  Hypothesis Hqr : correct_qr qr.
  Hypothesis Hqr' : correct_qr qr'.
  Variable nan : R.
  Variables (nm n nc : nat).
  Hypothesis Hnm : (1 <= nm)%nat.
  Variable i : nat.
  Variable s : nat -> nat.
  Hypothesis Hs : reordering n s.
  Variables controls controls' : nat -> nat -> option R.
  Hypothesis Hcontrols : forall c, (c < nc)%nat -> controls i c = controls' i c.

  (** The same equation, with the loadings in the order of the factors. *)
  Definition same_equation (q q' : bool * measurement) : Prop :=
    fst q = fst q' /\ vperm n s (ms_loadings (snd q)) (ms_loadings (snd q')) /\
    (forall c, (c < nc)%nat -> ms_control_params (snd q) c = ms_control_params (snd q') c) /\
    ms_sd (snd q) = ms_sd (snd q') /\ ms_values (snd q) i = ms_values (snd q') i /\ ms_sd (snd q) <> 0.

  Lemma step_related q q' x y : same_equation q q' -> related_states nm n s i x y ->
    related_states nm n s i (step qr nan nm n nc controls x q) (step qr' nan nm n nc controls' y q').
  Proof.
    destruct q as [a ms], q' as [a' ms']. intros (E1 & E2 & E3 & E4 & E5 & E6) [Hm Ht]. cbn [fst snd] in *. subst a'.
    unfold step. cbn [fst snd]. destruct (ms_values ms i) as [z|] eqn:Ez.
    - symmetry in E5.
      assert (Hoff : dot nc (fun c => to_number nan (controls i c)) (ms_control_params ms)
                     = dot nc (fun c => to_number nan (controls' i c)) (ms_control_params ms')).
      { apply rsum_ext. intros c Hc. now rewrite (Hcontrols c Hc), (E3 c Hc). }
      assert (E6' : ms_sd ms' <> 0) by congruence.
      assert (Hld : forall m, (m < nm)%nat ->
        ldens n (fs_states x i m) (cov n (fs_chols x i m)) (ms_loadings ms) (ms_sd ms)
          (dot nc (fun c => to_number nan (controls i c)) (ms_control_params ms)) z
        = ldens n (fs_states y i m) (cov n (fs_chols y i m)) (ms_loadings ms') (ms_sd ms')
          (dot nc (fun c => to_number nan (controls' i c)) (ms_control_params ms')) z).
      { intros m Hlt. destruct (Hm m Hlt) as (A & B & _). rewrite Hoff, E4. now apply (ldens_perm n s Hs). }
      assert (Hlw : forall m, (m < nm)%nat -> fs_logw x i m = fs_logw y i m) by (intros m Hlt; apply (Hm m Hlt)).
      assert (Htot : fs_total (update_with qr nan nm n nc controls x ms) i = fs_total (update_with qr' nan nm n nc controls' y ms') i).
      { rewrite (upd_total qr Hqr nan nm n nc controls i x ms z Ez), (upd_total qr' Hqr' nan nm n nc controls' i y ms' z E5).
        rewrite Ht. f_equal. destruct (2 <=? nm)%nat.
        - apply logsumexp_ext. intros m Hlt. rewrite (Hld m Hlt), (Hlw m Hlt). reflexivity.
        - apply Hld. lia. }
      assert (Hw : forall m, (m < nm)%nat -> fs_logw (update_with qr nan nm n nc controls x ms) i m
                                          = fs_logw (update_with qr' nan nm n nc controls' y ms') i m).
      { intros m Hlt.
        rewrite (upd_logw qr Hqr nan nm n nc controls i x ms z Ez m), (upd_logw qr' Hqr' nan nm n nc controls' i y ms' z E5 m).
        destruct (2 <=? nm)%nat; [|now apply Hlw]. rewrite (Hld m Hlt), (Hlw m Hlt). f_equal.
        apply logsumexp_ext. intros m' Hlt'. now rewrite (Hld m' Hlt'), (Hlw m' Hlt'). }
      destruct a.
      + split; [|exact Htot]. intros m Hlt. cbn [fs_states fs_chols fs_logw]. destruct (Hm m Hlt) as (A & B & _). auto.
      + split; [|exact Htot]. intros m Hlt. destruct (Hm m Hlt) as (A & B & _). split; [|split; [|now apply Hw]].
        * intros k Hk. rewrite (upd_states qr Hqr nan nm n nc controls i x ms z Ez E6 m (s k) (proj1 Hs k Hk)).
          rewrite (upd_states qr' Hqr' nan nm n nc controls' i y ms' z E5 E6' m k Hk).
          rewrite Hoff, E4. now apply (cmean_perm n s Hs).
        * intros k l Hk Hl. rewrite (upd_cov qr Hqr nan nm n nc controls i x ms z Ez E6 m (s k) (s l) (proj1 Hs k Hk) (proj1 Hs l Hl)).
          rewrite (upd_cov qr' Hqr' nan nm n nc controls' i y ms' z E5 E6' m k l Hk Hl).
          rewrite E4. now apply (ccov_perm n s Hs).
    - symmetry in E5.
      assert (A := update_missing_individual qr nan nm n nc (fs_states x) (fs_chols x) (ms_loadings ms) (ms_control_params ms)
        (ms_sd ms) (ms_values ms) controls (fs_logw x) i Ez). destruct A as (A1 & A2 & A3 & A4 & _).
      assert (B := update_missing_individual qr' nan nm n nc (fs_states y) (fs_chols y) (ms_loadings ms') (ms_control_params ms')
        (ms_sd ms') (ms_values ms') controls' (fs_logw y) i E5). destruct B as (B1 & B2 & B3 & B4 & _).
      destruct a; split; cbn [fs_states fs_chols fs_logw fs_total update_with]; rewrite ?A1, ?A2, ?A3, ?A4, ?B1, ?B2, ?B3, ?B4;
        try exact Hm; now rewrite Ht.
  Qed.

  Lemma steps_related l l' : Forall2 same_equation l l' -> forall x y, related_states nm n s i x y ->
    related_states nm n s i (steps qr nan nm n nc controls l x) (steps qr' nan nm n nc controls' l' y).
  Proof.
    induction 1 as [|q q' l l' Hq _ IH]; intros x y H; [exact H|]. cbn [steps fold_left]. apply IH. now apply step_related.
  Qed.
End Steps.

Lemma reordering_id n : reordering n (fun a => a).
Proof. split; auto. Qed.

Lemma related_same nm n s i x y z : related_states nm n s i x y -> same_state nm n i y z -> related_states nm n s i x z.
Proof.
  intros [A T] [B U]. split; [|congruence]. intros m Hm. destruct (A m Hm) as (A1 & A2 & A3), (B m Hm) as (B1 & B2 & B3).
  split; [|split; [|congruence]].
  - intros a Ha. rewrite <- (B1 a Ha). now apply A1.
  - intros a b Ha Hb. rewrite <- (B2 a b Ha Hb). now apply A2.
Qed.

Section Anchors.
  Variable qr : qr_function.
  Hypothesis Hqr : correct_qr qr.
  Variable nan : R.
  Variables (nm n nc : nat).
  Hypothesis Hnm : (1 <= nm)%nat.
  Variable i : nat.
  Variable controls : nat -> nat -> option R.
  Let stp := step qr nan nm n nc controls.
  Let same := same_state nm n i.

  Lemma step_same q x y : ms_sd (snd q) <> 0 -> same x y -> same (stp x q) (stp y q).
  Proof.
    intros Hsd H. apply (step_related qr qr Hqr Hqr nan nm n nc Hnm i (fun a => a) (reordering_id n) controls controls); [reflexivity| |exact H].
    repeat split; auto.
  Qed.

  Lemma steps_same l : Forall (fun q => ms_sd (snd q) <> 0) l -> forall x y, same x y ->
    same (steps qr nan nm n nc controls l x) (steps qr nan nm n nc controls l y).
  Proof. induction 1 as [|q l Hq _ IH]; intros x y H; [exact H|]. cbn [steps fold_left]. apply IH. now apply step_same. Qed.

  Let ld (x : filter_state) (ms : measurement) (z : R) (m : nat) : R :=
    ldens n (fs_states x i m) (cov n (fs_chols x i m)) (ms_loadings ms) (ms_sd ms)
      (dot nc (fun c => to_number nan (controls i c)) (ms_control_params ms)) z.

  Lemma anchor_missing x ms : ms_values ms i = None -> same (stp x (true, ms)) x.
  Proof.
    intros E. destruct (upd_missing qr nan nm n nc controls i x ms E) as [A T].
    split; [|exact T]. intros m Hm. destruct (A m Hm) as (_ & _ & C). split; [|split; [|exact C]]; intros ? **; reflexivity.
  Qed.

  Lemma anchor_swap x a b : ms_sd a <> 0 -> ms_sd b <> 0 ->
    same (stp (stp x (true, a)) (true, b)) (stp (stp x (true, b)) (true, a)).
  Proof.
    intros Ha Hb. destruct (ms_values a i) as [za|] eqn:Ea.
    2:{ apply same_trans with (stp x (true, b)).
        - apply step_same; [exact Hb|]. now apply anchor_missing.
        - apply same_sym. now apply anchor_missing. }
    destruct (ms_values b i) as [zb|] eqn:Eb.
    2:{ apply same_trans with (stp x (true, a)).
        - now apply anchor_missing.
        - apply same_sym. apply step_same; [exact Ha|]. now apply anchor_missing. }
    set (xa := stp x (true, a)). set (xb := stp x (true, b)).
    set (ca := if (2 <=? nm)%nat then logsumexp nm (fun m => ld x a za m + fs_logw x i m) else ld x a za O).
    set (cb := if (2 <=? nm)%nat then logsumexp nm (fun m => ld x b zb m + fs_logw x i m) else ld x b zb O).
    assert (Ta : fs_total xa i = fs_total x i + ca) by exact (upd_total qr Hqr nan nm n nc controls i x a za Ea).
    assert (Tb : fs_total xb i = fs_total x i + cb) by exact (upd_total qr Hqr nan nm n nc controls i x b zb Eb).
    assert (Wa : forall m, fs_logw xa i m = if (2 <=? nm)%nat then ld x a za m + fs_logw x i m - ca else fs_logw x i m)
      by exact (upd_logw qr Hqr nan nm n nc controls i x a za Ea).
    assert (Wb : forall m, fs_logw xb i m = if (2 <=? nm)%nat then ld x b zb m + fs_logw x i m - cb else fs_logw x i m)
      by exact (upd_logw qr Hqr nan nm n nc controls i x b zb Eb).
    set (cab := if (2 <=? nm)%nat then logsumexp nm (fun m => ld x b zb m + fs_logw xa i m) else ld x b zb O).
    set (cba := if (2 <=? nm)%nat then logsumexp nm (fun m => ld x a za m + fs_logw xb i m) else ld x a za O).
    assert (Tab : fs_total (stp xa (true, b)) i = fs_total xa i + cab) by exact (upd_total qr Hqr nan nm n nc controls i xa b zb Eb).
    assert (Tba : fs_total (stp xb (true, a)) i = fs_total xb i + cba) by exact (upd_total qr Hqr nan nm n nc controls i xb a za Ea).
    assert (Wab : forall m, fs_logw (stp xa (true, b)) i m = if (2 <=? nm)%nat then ld x b zb m + fs_logw xa i m - cab else fs_logw xa i m)
      by exact (upd_logw qr Hqr nan nm n nc controls i xa b zb Eb).
    assert (Wba : forall m, fs_logw (stp xb (true, a)) i m = if (2 <=? nm)%nat then ld x a za m + fs_logw xb i m - cba else fs_logw xb i m)
      by exact (upd_logw qr Hqr nan nm n nc controls i xb a za Ea).
    assert (C : ca + cab = cb + cba).
    { unfold cab, cba. destruct (2 <=? nm)%nat.
      - rewrite (logsumexp_ext nm _ (fun m => ld x a za m + ld x b zb m + fs_logw x i m - ca)) by (intros m _; rewrite Wa; ring).
        rewrite (logsumexp_ext nm (fun m => ld x a za m + fs_logw xb i m) (fun m => ld x a za m + ld x b zb m + fs_logw x i m - cb))
          by (intros m _; rewrite Wb; ring).
        rewrite !(logsumexp_shift nm) by assumption. ring.
      - unfold ca, cb. ring. }
    split; [|rewrite Tab, Tba, Ta, Tb; lra]. intros m Hm. split; [intros ? ?; reflexivity|]. split; [intros ? ? ? ?; reflexivity|].
    rewrite Wab, Wba, Wa, Wb. destruct (2 <=? nm)%nat; [lra|reflexivity].
  Qed.

  Lemma anchors_permutation l l' : Permutation l l' -> Forall (fun ms => ms_sd ms <> 0) l -> forall x,
    same (steps qr nan nm n nc controls (map (pair true) l) x) (steps qr nan nm n nc controls (map (pair true) l') x).
  Proof.
    induction 1 as [|a l l' P IH|a b l|l1 l2 l3 P1 IH1 P2 IH2]; intros F x.
    - apply same_refl.
    - apply Forall_cons_iff in F as [_ F]. apply (IH F).
    - apply Forall_cons_iff in F as [Fb F]. apply Forall_cons_iff in F as [Fa F]. cbn [map steps fold_left].
      apply steps_same; [|now apply anchor_swap]. apply Forall_forall. intros q Hq. apply in_map_iff in Hq as (ms & <- & Hms).
      rewrite Forall_forall in F. now apply F.
    - apply same_trans with (steps qr nan nm n nc controls (map (pair true) l2) x); [now apply IH1|]. apply IH2.
      rewrite Forall_forall in F |- *. intros ms Hms. apply F. eapply Permutation_in; [apply Permutation_sym, P1|exact Hms].
  Qed.

  Lemma steps_measure l : forall x, steps qr nan nm n nc controls (map (pair false) l) x = update_all qr nan nm n nc controls x l.
  Proof. induction l as [|ms l IH]; intros x; [reflexivity|]. apply IH. Qed.

  Lemma steps_app l l' x : steps qr nan nm n nc controls (l ++ l') x = steps qr nan nm n nc controls l' (steps qr nan nm n nc controls l x).
  Proof. apply fold_left_app. Qed.

  (** First the measurements, then the anchoring equations; each in any order. *)
  Lemma period_permutation ms ms' an an' : Permutation ms ms' -> Permutation an an' ->
    Forall (fun e => ms_sd e <> 0) (ms ++ an) -> forall x,
    same (steps qr nan nm n nc controls (map (pair false) ms ++ map (pair true) an) x)
         (steps qr nan nm n nc controls (map (pair false) ms' ++ map (pair true) an') x).
  Proof.
    intros P1 P2 F x. apply Forall_app in F as [F1 F2]. rewrite !steps_app, !steps_measure.
    apply same_trans with (steps qr nan nm n nc controls (map (pair true) an) (update_all qr nan nm n nc controls x ms')).
    - apply steps_same.
      + apply Forall_forall. intros q Hq. apply in_map_iff in Hq as (e & <- & He). rewrite Forall_forall in F2. now apply F2.
      + now apply upds_permutation.
    - now apply anchors_permutation.
  Qed.
End Anchors.

(** ** Runs *)

Section Block.
  Variable qr : qr_function.
  Variable nan : R.
  Variable tfunc : dict (list R) -> vec -> vec.
  Variables (n_obs nm n no nc : nat) (kappa : R) (inp : inputs) (i : nat).
  Let runs := run qr nan tfunc n_obs nm n no nc kappa inp.

  Definition block_event (t : nat) (kb : nat * bool) : event := if snd kb then Anchor (fst kb) t else Measure (fst kb) t.
  Definition block_equation (kb : nat * bool) : bool * measurement :=
    (snd kb, mk_meas (in_loadings inp (fst kb)) (in_control_params inp (fst kb)) (in_sd inp (fst kb)) (in_values inp (fst kb))).

  (** A belief as state of the filter, with an accumulated log likelihood. *)
  Definition state_of (b : belief) (total : vec) : filter_state := mk_fstate (be_states b) (be_chols b) (be_logw b) total.
  Definition block_total (recs : list record) (j : nat) : R := sum_list (map (fun r => re_contribution r j) recs).

  Lemma run_block t l rest : forall b recs total, runs (map (block_event t) l ++ rest) b = Ok recs ->
    exists r1 r2 b1, recs = r1 ++ r2 /\ length r1 = length l /\ runs rest b1 = Ok r2 /\
      (let e := steps qr nan nm n nc (in_controls inp t) (map block_equation l) (state_of b total) in
       fs_states e = be_states b1 /\ fs_chols e = be_chols b1 /\ fs_logw e = be_logw b1 /\
       forall j, fs_total e j = total j + block_total r1 j) /\
      (forall r r', r1 = r' ++ [r] -> re_states r = be_states b1 /\ re_logw r = be_logw b1).
  Proof.
    induction l as [|[k a] l IH]; intros b recs total E.
    - exists [], recs, b. split; [reflexivity|]. split; [reflexivity|]. split; [exact E|]. split.
      + cbn. repeat split. intros j. unfold block_total. cbn. ring.
      + intros r r' F. destruct r'; discriminate.
    - set (br := update_event qr nan nm n nc inp a k t b).
      assert (E' : (do rest' <- runs (map (block_event t) l ++ rest) (fst br); Ok (snd br :: rest')) = Ok recs).
      { rewrite <- E. unfold br. cbn [map app]. unfold block_event at 2. cbn [fst snd]. destruct a; reflexivity. }
      apply rbind_ok in E' as (recs' & E' & F). injection F as <-.
      set (e1 := step qr nan nm n nc (in_controls inp t) (state_of b total) (block_equation (k, a))).
      destruct (IH _ _ (fs_total e1) E') as (r1 & r2 & b1 & -> & L & R2 & S & Hlast).
      exists (snd br :: r1), r2, b1. split; [reflexivity|]. split; [cbn [length]; now rewrite L|]. split; [exact R2|].
      assert (Est : e1 = state_of (fst br) (fs_total e1)).
      { unfold e1, br, step, update_event, update_with, block_equation, state_of. cbn [fst snd]. destruct a; reflexivity. }
      split.
      + cbn [map]. change (steps qr nan nm n nc (in_controls inp t) (block_equation (k, a) :: map block_equation l) (state_of b total))
          with (steps qr nan nm n nc (in_controls inp t) (map block_equation l) e1).
        rewrite Est. destruct S as (S1 & S2 & S3 & S4). cbv zeta. split; [exact S1|]. split; [exact S2|]. split; [exact S3|].
        intros j. rewrite S4. unfold block_total. cbn [map sum_list fold_right]. rewrite <- Rplus_assoc. f_equal.
        unfold e1, step, br, update_event, update_with, state_of, block_equation. cbn [fst snd]. destruct a; reflexivity.
      + intros r r' F. destruct r1 as [|r0 r1].
        * destruct r' as [|x r']; [|destruct r'; discriminate]. injection F as <-. destruct l as [|kb l]; [|discriminate].
          destruct S as (S1 & _ & S3 & _). cbn [map steps fold_left state_of fs_states fs_logw] in S1, S3. rewrite <- S1, <- S3.
          unfold br, update_event. cbn [fst snd re_states re_logw be_states be_logw]. split; reflexivity.
        * destruct r' as [|x r']; [discriminate|]. injection F as <- F. now apply (Hlast r r').
  Qed.
End Block.

(** ** The transition *)

Section Transition.
  Variables qr qr' : qr_function.
  Hypothesis Hqr : correct_qr qr.
  Hypothesis Hqr' : correct_qr qr'.
  Variables (n_obs nm n no : nat) (kappa kappa' : R).
  Hypothesis Hk : 0 <= kappa.
  Hypothesis Hk' : 0 <= kappa'.
  Hypothesis Hn : (1 <= n)%nat.
  Hypothesis Hshape : no = O \/ nm = 1%nat.
  Variable s : nat -> nat.
  Hypothesis Hs : reordering n s.
  Variable i : nat.
  Variables (func func' : vec -> vec) (a a' : mat) (b b' sds sds' : vec) (scale scale' const const' observed observed' : nat -> vec).
  Hypothesis Hf : forall v f, (f < n)%nat -> func v f = rsum (n + no) (fun g => a f g * v g) + b f.
  Hypothesis Hf' : forall v f, (f < n)%nat -> func' v f = rsum (n + no) (fun g => a' f g * v g) + b' f.
  Hypothesis Hsc : forall f, (f < n)%nat -> scale 1%nat f <> 0.
  Hypothesis Hsc' : forall f, (f < n)%nat -> scale' 1%nat f <> 0.
  Hypothesis Ha : forall f g, (f < n)%nat -> (g < n)%nat -> a (s f) (s g) = a' f g.
  Hypothesis Hao : forall f o, (f < n)%nat -> (o < no)%nat -> a (s f) (n + o)%nat = a' f (n + o)%nat.
  Hypothesis Hb : vperm n s b b'.
  Hypothesis Hsds : vperm n s sds sds'.
  Hypothesis Hscale : forall r, (r < 2)%nat -> vperm n s (scale r) (scale' r).
  Hypothesis Hconst : forall r, (r < 2)%nat -> vperm n s (const r) (const' r).
  Hypothesis Hscaleo : forall o, (o < no)%nat -> scale O (n + o)%nat = scale' O (n + o)%nat.
  Hypothesis Hconsto : forall o, (o < no)%nat -> const O (n + o)%nat = const' O (n + o)%nat.
  Hypothesis Hobs : forall o, (o < no)%nat -> observed i o = observed' i o.

  Lemma effective_perm : mperm n s (effective a scale) (effective a' scale').
  Proof.
    intros f g Hlt Hlt'. unfold effective.
    now rewrite (Ha f g Hlt Hlt'), (Hscale 0%nat ltac:(lia) g Hlt'), (Hscale 1%nat ltac:(lia) f Hlt).
  Qed.

  Lemma predict_related states states' chols chols' ps pc ps' pc' :
    (forall m, (m < nm)%nat -> vperm n s (states i m) (states' i m) /\ mperm n s (cov n (chols i m)) (cov n (chols' i m))) ->
    kalman_predict qr n_obs nm n no states chols (sigma_scaling_factor n kappa) (sigma_weights n kappa) func sds scale const observed = Ok (ps, pc) ->
    kalman_predict qr' n_obs nm n no states' chols' (sigma_scaling_factor n kappa') (sigma_weights n kappa') func' sds' scale' const' observed' = Ok (ps', pc') ->
    forall m, (m < nm)%nat -> vperm n s (ps i m) (ps' i m) /\ mperm n s (cov n (pc i m)) (cov n (pc' i m)).
  Proof.
    intros H E E' m Hm. destruct (H m Hm) as [Hx Hc].
    assert (Hp : 0 < INR n + kappa) by (apply le_INR in Hn; change (INR 1) with 1 in Hn; lra).
    assert (Hp' : 0 < INR n + kappa') by (apply le_INR in Hn; change (INR 1) with 1 in Hn; lra).
    destruct (C37_exact_for_affine qr Hqr n_obs nm n no kappa states chols func a b sds scale const observed Hp Hshape Hf Hsc)
      as (qs & qc & F & G). rewrite E in F. injection F as <- <-. destruct (G m m Hm) as (_ & _ & _). destruct (G i m Hm) as (G1 & _ & G2). specialize (G2 Hk).
    destruct (C37_exact_for_affine qr' Hqr' n_obs nm n no kappa' states' chols' func' a' b' sds' scale' const' observed' Hp' Hshape Hf' Hsc')
      as (qs & qc & F' & G'). rewrite E' in F'. injection F' as <- <-. destruct (G' i m Hm) as (G1' & _ & G2'). specialize (G2' Hk').
    split.
    - intros f Hlt. rewrite (G1 (s f) (proj1 Hs f Hlt)), (G1' f Hlt). unfold affine_image.
      rewrite (Hb f Hlt), (Hconst 1%nat ltac:(lia) f Hlt), (Hscale 1%nat ltac:(lia) f Hlt). f_equal. f_equal. f_equal. f_equal.
      + rewrite <- (rsum_reorder n s (fun g => a (s f) g * (states i m g * scale 0%nat g + const 0%nat g)) Hs).
        apply rsum_ext. intros g Hg. now rewrite (Ha f g Hlt Hg), (Hx g Hg), (Hscale 0%nat ltac:(lia) g Hg), (Hconst 0%nat ltac:(lia) g Hg).
      + apply rsum_ext. intros o Ho. now rewrite (Hao f o Hlt Ho), (Hobs o Ho), (Hscaleo o Ho), (Hconsto o Ho).
    - intros f g Hlt Hlt'. rewrite (G2 (s f) (s g) (proj1 Hs f Hlt) (proj1 Hs g Hlt')), (G2' f g Hlt Hlt'). f_equal.
      + rewrite <- (rsum_reorder n s (fun c => rsum n (fun d => effective a scale (s f) c * cov n (chols i m) c d * effective a scale (s g) d)) Hs).
        apply rsum_ext. intros c Hc'.
        rewrite <- (rsum_reorder n s (fun d => effective a scale (s f) (s c) * cov n (chols i m) (s c) d * effective a scale (s g) d) Hs).
        apply rsum_ext. intros d Hd.
        now rewrite (effective_perm f c Hlt Hc'), (effective_perm g d Hlt' Hd), (Hc c d Hc' Hd).
      + destruct (Nat.eq_dec (s f) (s g)) as [E1|N1], (Nat.eq_dec f g) as [E2|N2].
        * now rewrite (Hsds f Hlt).
        * destruct N2. now apply (proj2 Hs).
        * subst. now destruct N1.
        * reflexivity.
  Qed.
End Transition.

(** ** Whole runs *)

Section Periods.
  Variables qr qr' : qr_function.
  Hypothesis Hqr : correct_qr qr.
  Hypothesis Hqr' : correct_qr qr'.
  Variable nan : R.
  Variables tfunc tfunc' : dict (list R) -> vec -> vec.
  Variables (n_obs nm n no nc : nat) (kappa kappa' : R) (inp inp' : inputs) (i : nat) (s : nat -> nat).
  Hypothesis Hnm : (1 <= nm)%nat.
  Hypothesis Hs : reordering n s.
  Let runs := run qr nan tfunc n_obs nm n no nc kappa inp.
  Let runs' := run qr' nan tfunc' n_obs nm n no nc kappa' inp'.

  Definition related_beliefs (b b' : belief) : Prop :=
    forall m, (m < nm)%nat ->
      vperm n s (be_states b i m) (be_states b' i m) /\
      mperm n s (cov n (be_chols b i m)) (cov n (be_chols b' i m)) /\
      be_logw b i m = be_logw b' i m.

  (** What two runs record in a period: the same total contribution and the same
      distribution at the end of the period. *)
  Definition related_blocks (l l' : list record) : Prop :=
    block_total l i = block_total l' i /\
    forall r1 r r1' r', l = r1 ++ [r] -> l' = r1' ++ [r'] ->
      forall m, (m < nm)%nat -> vperm n s (re_states r i m) (re_states r' i m) /\ re_logw r i m = re_logw r' i m.

  (** In period [t] the equations [ms t] are followed by the anchoring equations [an t]. *)
  Variables ms ms' an an' : nat -> list nat.
  Variable last : nat.

  Definition period_list (ms an : list nat) : list (nat * bool) :=
    map (fun k => (k, false)) ms ++ map (fun k => (k, true)) an.

  Definition periods (ms an : nat -> list nat) (ts : list nat) : list event :=
    flat_map (fun t => map (block_event t) (period_list (ms t) (an t)) ++ (if (t + 1 <? last)%nat then [Transition t] else [])) ts.

  (** The same equations, in another order, with the factors in another order. *)
  Hypothesis Hcontrols : forall t, (t < last)%nat -> forall c, (c < nc)%nat -> in_controls inp t i c = in_controls inp' t i c.
  Hypothesis Hequations : forall t, (t < last)%nat -> exists ms1 an1,
    Permutation ms1 (ms' t) /\ Permutation an1 (an' t) /\
    Forall2 (same_equation n nc i s) (map (block_equation inp) (period_list (ms t) (an t)))
      (map (block_equation inp') (period_list ms1 an1)).
  Hypothesis Htransition : forall t b b' b1 b1', (t + 1 < last)%nat -> related_beliefs b b' ->
    transition_event qr nan tfunc n_obs nm n no kappa inp t b = Ok b1 ->
    transition_event qr' nan tfunc' n_obs nm n no kappa' inp' t b' = Ok b1' -> related_beliefs b1 b1'.

  Lemma period_related t b b' total : (t < last)%nat -> related_beliefs b b' ->
    related_states nm n s i
      (steps qr nan nm n nc (in_controls inp t) (map (block_equation inp) (period_list (ms t) (an t))) (state_of b total))
      (steps qr' nan nm n nc (in_controls inp' t) (map (block_equation inp') (period_list (ms' t) (an' t))) (state_of b' total)).
  Proof.
    intros Ht Hb. destruct (Hequations t Ht) as (ms1 & an1 & P1 & P2 & F).
    set (m0 := fun k => mk_meas (in_loadings inp' k) (in_control_params inp' k) (in_sd inp' k) (in_values inp' k)).
    assert (Em : forall a b, map (block_equation inp') (period_list a b) = map (pair false) (map m0 a) ++ map (pair true) (map m0 b)).
    { intros a0 b0. unfold period_list. now rewrite map_app, !map_map. }
    assert (Fsd : Forall (fun e => ms_sd e <> 0) (map m0 ms1 ++ map m0 an1)).
    { apply Forall_forall. intros e He. rewrite Em in F.
      assert (Hq : exists q, In q (map (pair false) (map m0 ms1) ++ map (pair true) (map m0 an1)) /\ snd q = e).
      { apply in_app_or in He as [He|He]; [exists (false, e)|exists (true, e)]; (split; [|reflexivity]); apply in_or_app;
          [left|right]; now apply in_map. }
      destruct Hq as (q & Hq & <-).
      assert (G : forall A B (P : A -> B -> Prop) l l', Forall2 P l l' -> forall y, In y l' -> exists x, P x y).
      { clear. induction 1 as [|x y l l' H _ IH]; intros z Hz; [destruct Hz|]. destruct Hz as [<-|Hz]; eauto. }
      destruct (G _ _ _ _ _ F q Hq) as (x & _ & _ & _ & E & _ & N). now rewrite <- E. }
    apply related_same with (steps qr' nan nm n nc (in_controls inp' t) (map (block_equation inp') (period_list ms1 an1)) (state_of b' total)).
    - apply (steps_related qr qr' Hqr Hqr' nan nm n nc Hnm i s Hs); [intros c Hc; now apply Hcontrols|exact F|].
      split; [exact Hb|reflexivity].
    - rewrite !Em. apply period_permutation; try assumption; now apply Permutation_map.
  Qed.

  Lemma period_length t : (t < last)%nat -> length (period_list (ms t) (an t)) = length (period_list (ms' t) (an' t)).
  Proof.
    intros Ht. destruct (Hequations t Ht) as (ms1 & an1 & P1 & P2 & F).
    assert (L : length (period_list (ms t) (an t)) = length (period_list ms1 an1)).
    { clear -F. rewrite <- (map_length (block_equation inp)), <- (map_length (block_equation inp') (period_list ms1 an1)).
      induction F; cbn; congruence. }
    rewrite L. unfold period_list. rewrite !app_length, !map_length. now rewrite (Permutation_length P1), (Permutation_length P2).
  Qed.

  Lemma periods_related m : forall t0 b b' recs recs', (t0 + m = last)%nat -> related_beliefs b b' ->
    runs (periods ms an (seq t0 m)) b = Ok recs -> runs' (periods ms' an' (seq t0 m)) b' = Ok recs' ->
    exists blocks blocks', recs = concat blocks /\ recs' = concat blocks' /\
      map (@length record) blocks = map (fun t => length (period_list (ms t) (an t))) (seq t0 m) /\
      map (@length record) blocks' = map (fun t => length (period_list (ms t) (an t))) (seq t0 m) /\
      Forall2 related_blocks blocks blocks'.
  Proof.
    induction m as [|m IH]; intros t0 b b' recs recs' Hm Hb E E'.
    - cbn in E, E'. injection E as <-. injection E' as <-. exists [], []. repeat split. constructor.
    - cbn [seq periods flat_map] in E, E'. rewrite <- app_assoc in E, E'.
      destruct (run_block _ _ _ _ _ _ _ _ _ _ t0 _ _ _ _ (fun _ => 0) E) as (r1 & r2 & b1 & -> & L & R & S & Hl).
      destruct (run_block _ _ _ _ _ _ _ _ _ _ t0 _ _ _ _ (fun _ => 0) E') as (r1' & r2' & b1' & -> & L' & R' & S' & Hl').
      assert (Hr := period_related t0 b b' (fun _ => 0) ltac:(lia) Hb).
      cbv zeta in S, S'. destruct S as (S1 & S2 & S3 & S4), S' as (S1' & S2' & S3' & S4'). destruct Hr as [Hr Ht].
      rewrite S4, S4' in Ht.
      assert (Hb1 : related_beliefs b1 b1').
      { intros m0 Hm0. specialize (Hr m0 Hm0). now rewrite S1, S1', S2, S2', S3, S3' in Hr. }
      assert (Hblk : related_blocks r1 r1').
      { split; [lra|]. intros u r u' r' Eu Eu' m0 Hm0. destruct (Hl _ _ Eu) as [-> ->], (Hl' _ _ Eu') as [-> ->].
        destruct (Hb1 m0 Hm0) as (A & _ & C). auto. }
      assert (G : exists c c', related_beliefs c c' /\ runs (periods ms an (seq (S t0) m)) c = Ok r2 /\
                runs' (periods ms' an' (seq (S t0) m)) c' = Ok r2').
      { destruct (Nat.ltb_spec (t0 + 1) last) as [Hlt|Hge].
        - cbn [app run] in R, R'. apply rbind_ok in R as (c & Ec & R). apply rbind_ok in R' as (c' & Ec' & R').
          exists c, c'. split; [|split; assumption]. now apply (Htransition t0 b1 b1' c c').
        - exists b1, b1'. cbn [app] in R, R'. auto. }
      destruct G as (c & c' & Hc & F & F').
      destruct (IH (S t0) c c' r2 r2' ltac:(lia) Hc F F') as (bl & bl' & -> & -> & M1 & M2 & Hbl).
      exists (r1 :: bl), (r1' :: bl'). split; [reflexivity|]. split; [reflexivity|]. cbn [map seq]. rewrite L, L', M1, M2.
      split; [reflexivity|]. split; [|now constructor]. f_equal. symmetry. apply period_length. lia.
  Qed.
End Periods.
