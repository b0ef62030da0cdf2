(** Lemmas about the transition plots: quantiles, grids, groups. *)
Require Import Reals QArith String Arith ZArith Bool List Lia Lra Permutation Sorted.
From Verif Require Import PyBase ListFacts ModelSpec ProcessModel CheckModel SpecModel SpecParse SpecIndex
  ParamsIndex ProcessData RSum Kalman HeatmapDataFacts SpecTransition DebugData SpecDebug TransitionPlots
  SpecPlots.
Import ListNotations.
Open Scope string_scope.
Open Scope list_scope.
Open Scope nat_scope.

(** ** Sorting *)

Lemma rinsert_perm x l : Permutation (x :: l) (rinsert x l).
Proof.
  induction l as [|y l IH]; simpl; [reflexivity|]. destruct (Rle_dec x y); [reflexivity|].
  rewrite perm_swap. now constructor.
Qed.

Lemma rsort_perm l : Permutation l (rsort l).
Proof.
  induction l as [|x l IH]; [reflexivity|]. simpl. rewrite <- rinsert_perm. now constructor.
Qed.

Lemma rinsert_sorted x l : StronglySorted Rle l -> StronglySorted Rle (rinsert x l).
Proof.
  intros H. induction H as [|y l Hl IH Hy]; simpl; [repeat constructor|].
  destruct (Rle_dec x y) as [Hxy|Hxy].
  - constructor; [now constructor|]. constructor; [exact Hxy|].
    eapply Forall_impl; [|exact Hy]. intros z Hz. lra.
  - constructor; [exact IH|]. apply Forall_forall. intros z Hz.
    apply (Permutation_in z (Permutation_sym (rinsert_perm x l))) in Hz as [<-|Hz]; [lra|].
    rewrite Forall_forall in Hy. now apply Hy.
Qed.

Lemma rsort_sorted l : StronglySorted Rle (rsort l).
Proof. induction l; simpl; [constructor|]. now apply rinsert_sorted. Qed.

(** ** Quantiles *)

Lemma INR_floor h : (0 <= h)%R ->
  (INR (Z.to_nat (Int_part h)) <= h < INR (Z.to_nat (Int_part h)) + 1)%R.
Proof.
  intros Hh. destruct (base_Int_part h) as [H1 H2].
  assert (Hz : (0 <= Int_part h)%Z).
  { assert (-1 < Int_part h)%Z by (apply lt_IZR; lra). lia. }
  rewrite INR_IZR_INZ, Z2Nat.id by exact Hz. lra.
Qed.

Lemma dropna_numbers l : dropna l = numbers l.
Proof. induction l as [|[x|] l IH]; simpl; [reflexivity|now rewrite IH|exact IH]. Qed.

Lemma pd_quantile_ok q l : (0 <= q <= 1)%R -> numbers l <> [] ->
  exists v, pd_quantile q l = Some v /\ is_quantile (numbers l) q v.
Proof.
  intros Hq Hne. unfold pd_quantile. rewrite dropna_numbers.
  pose proof (rsort_perm (numbers l)) as Hp. pose proof (rsort_sorted (numbers l)) as Hs.
  destruct (rsort (numbers l)) as [|x xs] eqn:E.
  { apply Permutation_sym, Permutation_nil in Hp. contradiction. }
  eexists. split; [reflexivity|].
  set (h := (INR (length xs) * q)%R). set (k := Z.to_nat (Int_part h)).
  assert (Hm : (0 <= INR (length xs))%R) by apply pos_INR.
  assert (Hh : (0 <= h <= INR (length xs))%R) by (unfold h; split; nra).
  pose proof (INR_floor h (proj1 Hh)) as Hk. fold k in Hk.
  assert (Hkm : k <= length xs). { apply INR_le. lra. }
  exists (x :: xs), k, (nth k (x :: xs) 0%R). split; [exact Hp|]. split; [exact Hs|].
  split; [apply nth_error_nth'; simpl; lia|].
  assert (Eh : (q * (INR (length (x :: xs)) - 1))%R = h).
  { cbn [length]. rewrite S_INR. unfold h. ring. }
  cbv zeta. rewrite Eh. split; [exact Hk|].
  destruct (Nat.eq_dec k (length xs)) as [Ek|Ek].
  - left. rewrite (nth_overflow (x :: xs)) with (n := S k) by (simpl; lia).
    assert (h = INR k) by (rewrite Ek in *; lra). split; [assumption|]. lra.
  - right. eexists. split; [|reflexivity]. apply nth_error_nth'. simpl. lia.
Qed.

Lemma sorted_perm_unique ys zs :
  StronglySorted Rle ys -> StronglySorted Rle zs -> Permutation ys zs -> ys = zs.
Proof.
  intros Hy. revert zs. induction Hy as [|y ys Hys IH Hy]; intros zs Hz Hp.
  - apply Permutation_nil in Hp. now subst.
  - destruct zs as [|z zs]; [now apply Permutation_sym, Permutation_nil in Hp|].
    assert (y = z).
    { inversion Hz as [|? ? _ Hz2]. subst. rewrite Forall_forall in Hy, Hz2.
      assert (H1 : In y (z :: zs)) by (apply (Permutation_in y Hp); now left).
      assert (H2 : In z (y :: ys)) by (apply (Permutation_in z (Permutation_sym Hp)); now left).
      destruct H1 as [H1|H1]; [now subst|]. destruct H2 as [H2|H2]; [now subst|].
      apply Rle_antisym; auto. }
    subst z. f_equal. apply IH; [now inversion Hz|]. now apply Permutation_cons_inv in Hp.
Qed.

(** A quantile is determined by the numbers. *)
Lemma is_quantile_unique xs q v w : is_quantile xs q v -> is_quantile xs q w -> v = w.
Proof.
  intros (ys & k & a & P1 & S1 & K1 & H1 & C1) (zs & k' & a' & P2 & S2 & K2 & H2 & C2).
  assert (zs = ys).
  { apply sorted_perm_unique; try assumption. now rewrite <- P2, P1. }
  subst zs. cbv zeta in *. set (h := (q * (INR (length ys) - 1))%R) in *.
  assert (k = k').
  { destruct H1 as [A1 A2], H2 as [B1 B2]. rewrite <- S_INR in A2, B2.
    assert (INR k < INR (S k'))%R by lra. assert (INR k' < INR (S k))%R by lra.
    apply INR_lt in H, H0. lia. }
  subst k'. assert (a = a') by congruence. subst a'.
  destruct C1 as [[E1 ->]|(b & Eb & ->)], C2 as [[E2 ->]|(b' & Eb' & ->)]; try reflexivity.
  - rewrite E1. lra.
  - rewrite E2. lra.
  - congruence.
Qed.

Lemma is_quantile_perm xs xs' q v : Permutation xs xs' -> is_quantile xs q v -> is_quantile xs' q v.
Proof.
  intros Hp (ys & k & a & P1 & H). exists ys, k, a. split; [now rewrite <- Hp|exact H].
Qed.

(** ** Grids *)

Lemma linspace_length lo hi n : length (linspace lo hi n) = n.
Proof. unfold linspace, range. now rewrite map_length, seq_length. Qed.

Lemma nth_error_range n k i : nth_error (range n) k = Some i -> k < n /\ i = k.
Proof.
  intros H. assert (Hk : k < n).
  { rewrite <- (seq_length n 0). apply nth_error_Some. unfold range in H. congruence. }
  split; [exact Hk|]. unfold range in H.
  rewrite (nth_error_nth' _ 0) in H by (now rewrite seq_length). rewrite seq_nth in H by exact Hk.
  simpl in H. congruence.
Qed.

Lemma linspace_spaced lo hi n k x : nth_error (linspace lo hi n) k = Some x -> spaced lo hi n k x.
Proof.
  unfold linspace. intros H. rewrite nth_error_map in H.
  destruct (nth_error (range n) k) as [i|] eqn:E; [|discriminate]. injection H as <-.
  apply nth_error_range in E as [Hk ->].
  assert (Hn : 1 < n -> INR (n - 1) <> 0%R).
  { intros H. apply not_0_INR. lia. }
  split; [|split].
  - intros ->. simpl. lra.
  - intros Hl H1. replace (n - 1) with k in * by lia. specialize (Hn H1). field. exact Hn.
  - intros H1. specialize (Hn H1). field. exact Hn.
Qed.

(** ** Curves *)

Lemma evaluate_total nan tf all i tp grid others :
  (forall x, In x grid -> exists y, tf tp (input_row nan all i x others) = Ok y) ->
  exists xy, evaluate nan tf all i tp grid others = Ok xy.
Proof.
  intros H. unfold evaluate. apply mapM_total. intros x Hx. destruct (H x Hx) as [y ->].
  cbn [rbind]. eauto.
Qed.

Lemma evaluate_nth nan tf all i tp grid others xy k x y :
  evaluate nan tf all i tp grid others = Ok xy -> nth_error xy k = Some (x, y) ->
  nth_error grid k = Some x /\ tf tp (input_row nan all i x others) = Ok y.
Proof.
  unfold evaluate. intros H Hk.
  destruct (nth_error grid k) as [x'|] eqn:Eg.
  - destruct (mapM_nth_error _ _ _ _ _ H Eg) as (xy' & E1 & E2). rewrite Hk in E1. injection E1 as <-.
    apply rbind_ok in E2 as (y' & E & E2). injection E2 as <- <-. auto.
  - apply nth_error_None in Eg. apply mapM_length in H. rewrite <- H in Eg.
    apply nth_error_None in Eg. congruence.
Qed.

Lemma evaluate_curve nan tf all i tp lo hi n others xy (f : R -> R -> Prop) :
  evaluate nan tf all i tp (linspace lo hi n) others = Ok xy ->
  (forall x y, tf tp (input_row nan all i x others) = Ok y -> f x y) ->
  is_curve lo hi n f xy.
Proof.
  intros H Hf. split.
  - unfold evaluate in H. rewrite (mapM_length _ _ _ H). apply linspace_length.
  - intros k x y Hk. destruct (evaluate_nth _ _ _ _ _ _ _ _ _ _ _ H Hk) as [H1 H2].
    split; [now apply linspace_spaced|auto].
Qed.

(** ** Lines *)

Lemma distinct_nodup l : NoDup l -> distinct l = l.
Proof.
  induction 1 as [|x l Hx Hl IH]; [reflexivity|]. simpl. rewrite IH. f_equal.
  assert (G : forall m, ~ In x m -> filter (fun y => if Req_EM_T x y then false else true) m = m).
  { induction m as [|y m IHm]; intros Hm; [reflexivity|]. simpl.
    destruct (Req_EM_T x y) as [E|E]; [exfalso; apply Hm; left; congruence|].
    f_equal. apply IHm. intros H. apply Hm. now right. }
  now apply G.
Qed.

Definition curve_rows (q : R) (c : list (R * R)) : list point :=
  map (fun xy => mk_point (fst xy) (snd xy) (Some q)) c.

Lemma filter_quantile q q' c :
  map point_xy (filter (fun r => match pt_quantile r with
                                 | Some q' => if Req_EM_T q q' then true else false
                                 | None => false end) (curve_rows q' c))
  = if Req_EM_T q q' then c else [].
Proof.
  induction c as [|[x y] c IH]; simpl; [now destruct (Req_EM_T q q')|].
  destruct (Req_EM_T q q') as [E|E]; simpl.
  - unfold point_xy at 1. simpl. f_equal. exact IH.
  - exact IH.
Qed.

(** One line for each quantile. *)
Lemma px_line_quantiles n qs curves : 1 <= n -> length curves = length qs -> NoDup qs ->
  (forall c, In c curves -> length c = n) ->
  px_line true (concat (map (fun qc => curve_rows (fst qc) (snd qc)) (combine qs curves)))
  = map (fun qc => mk_line (Some (fst qc)) (snd qc)) (combine qs curves).
Proof.
  intros Hn Hl Hnd Hc. unfold px_line.
  set (rows := concat (map (fun qc => curve_rows (fst qc) (snd qc)) (combine qs curves))).
  assert (Hq : distinct (flat_map (fun r => match pt_quantile r with Some q => [q] | None => [] end) rows) = qs).
  { unfold rows. clear rows. revert curves Hl Hc.
    induction Hnd as [|q qs Hq Hnd IH]; intros curves Hl Hc; destruct curves as [|c curves]; try discriminate.
    - reflexivity.
    - cbn [combine map concat fst snd]. rewrite flat_map_app.
      specialize (IH curves ltac:(now injection Hl) (fun c' H => Hc c' (or_intror H))).
      assert (Hlen : length c = n) by (apply Hc; now left).
      set (rest := flat_map _ (concat _)) in *.
      assert (G : forall c', 
        distinct (flat_map (fun r => match pt_quantile r with Some q => [q] | None => [] end)
                    (curve_rows q c') ++ rest)
        = match c' with [] => qs | _ => q :: qs end).
      { induction c' as [|xy c' IHc]; [exact IH|]. cbn [curve_rows map flat_map pt_quantile app distinct].
        fold (curve_rows q c'). rewrite IHc. destruct c' as [|xy' c'].
        - f_equal. clear -Hq. induction qs as [|z qs IH]; [reflexivity|]. simpl.
          destruct (Req_EM_T q z); [exfalso; apply Hq; left; congruence|]. f_equal. apply IH.
          intros H. apply Hq. now right.
        - simpl. destruct (Req_EM_T q q) as [_|E]; [|congruence]. f_equal.
          clear -Hq. induction qs as [|z qs IH]; [reflexivity|]. simpl.
          destruct (Req_EM_T q z); [exfalso; apply Hq; left; congruence|]. f_equal. apply IH.
          intros H. apply Hq. now right. }
      rewrite G. destruct c; [simpl in Hlen; lia|reflexivity]. }
  rewrite Hq. clear Hq.
  assert (G : forall q, map point_xy (filter (fun r => match pt_quantile r with
                  | Some q' => if Req_EM_T q q' then true else false | None => false end) rows)
              = concat (map (fun qc => if Req_EM_T q (fst qc) then snd qc else []) (combine qs curves))).
  { intros q. unfold rows. induction (combine qs curves) as [|[q' c] l IH]; [reflexivity|].
    cbn [map concat fst snd]. rewrite filter_app, map_app, IH, filter_quantile. reflexivity. }
  assert (Hrest : forall q cs qs', ~ In q qs' ->
            concat (map (fun qc : R * list (R * R) => if Req_EM_T q (fst qc) then snd qc else []) (combine qs' cs)) = []).
  { intros q cs qs'. revert cs. induction qs' as [|z qs' IH]; intros cs H; [reflexivity|].
    destruct cs as [|c cs]; [reflexivity|]. simpl.
    destruct (Req_EM_T q z); [exfalso; apply H; left; congruence|]. simpl. apply IH.
    intros Hin. apply H. now right. }
  assert (E : forall q c, In (q, c) (combine qs curves) ->
            concat (map (fun qc => if Req_EM_T q (fst qc) then snd qc else []) (combine qs curves)) = c).
  { clear G rows Hc Hn. revert curves Hl.
    induction Hnd as [|z qs Hz Hnd IH]; intros curves Hl q c Hin; destruct curves as [|d curves]; try easy.
    simpl in Hin. cbn [combine map concat fst snd]. destruct Hin as [[= -> ->]|Hin].
    - destruct (Req_EM_T q q) as [_|F]; [|congruence]. rewrite Hrest by exact Hz. apply app_nil_r.
    - destruct (Req_EM_T q z) as [->|_].
      + exfalso. apply Hz. now apply in_combine_l in Hin.
      + simpl. apply IH; [now injection Hl|exact Hin]. }
  transitivity (map (fun q => mk_line (Some q)
     (concat (map (fun qc => if Req_EM_T q (fst qc) then snd qc else []) (combine qs curves))))
     (map fst (combine qs curves))).
  - rewrite NoDup_map_fst_combine by congruence. apply map_ext. intros q. now rewrite G.
  - rewrite map_map. apply map_ext_in. intros [q c] Hin. cbn [fst snd]. now rewrite (E q c Hin).
Qed.

(** ** Means by group *)

Lemma distinct_In x l : In x (distinct l) <-> In x l.
Proof.
  induction l as [|y l IH]; [tauto|]. simpl. split.
  - intros [->|H]; [now left|]. apply filter_In in H as [H _]. right. now apply IH.
  - intros [->|H]; [now left|]. destruct (Req_EM_T y x) as [->|E]; [now left|]. right.
    apply filter_In. split; [now apply IH|]. now destruct (Req_EM_T y x).
Qed.

Lemma distinct_NoDup l : NoDup (distinct l).
Proof.
  induction l as [|y l IH]; simpl; constructor.
  - intros H. apply filter_In in H as [_ H]. now destruct (Req_EM_T y y).
  - now apply NoDup_filter.
Qed.

Lemma rmean_ext l l' : l = l' -> rmean l = rmean l'.
Proof. congruence. Qed.

Lemma filter_pair x (F : R -> R) grid : NoDup grid -> In x grid ->
  map snd (filter (fun r => if Req_EM_T x (fst r) then true else false) (map (fun x => (x, F x)) grid)) = [F x].
Proof.
  intros Hnd Hin. induction Hnd as [|y grid Hy Hnd IH]; [destruct Hin|].
  cbn [map filter fst]. destruct (Req_EM_T x y) as [<-|E].
  - cbn [map snd]. f_equal.
    assert (G : forall l, ~ In x l ->
              filter (fun r => if Req_EM_T x (fst r) then true else false) (map (fun x => (x, F x)) l) = []).
    { induction l as [|z l IHl]; intros Hn; [reflexivity|]. cbn [map filter fst].
      destruct (Req_EM_T x z); [exfalso; apply Hn; left; congruence|]. apply IHl. intros H. apply Hn. now right. }
    now rewrite (G grid Hy).
  - apply IH. destruct Hin as [->|Hin]; [congruence|exact Hin].
Qed.

Lemma sorted_lt_le l : StronglySorted Rlt l -> StronglySorted Rle l /\ NoDup l.
Proof.
  induction 1 as [|x l Hl [IH1 IH2] Hx]; [split; constructor|]. split; constructor; try assumption.
  - eapply Forall_impl; [|exact Hx]. intros. lra.
  - intros H. rewrite Forall_forall in Hx. specialize (Hx x H). lra.
Qed.

(** The mean over the draws at each point of the grid. *)
Lemma group_means_grid {D} (F : D -> R -> R) grid draws : StronglySorted Rlt grid -> draws <> [] ->
  group_means (concat (map (fun d => map (fun x => (x, F d x)) grid) draws))
  = map (fun x => (x, rmean (map (fun d => F d x) draws))) grid.
Proof.
  intros Hs Hd. apply sorted_lt_le in Hs as [Hs Hnd]. unfold group_means.
  assert (Hkeys : rsort (distinct (map fst (concat (map (fun d => map (fun x => (x, F d x)) grid) draws)))) = grid).
  { apply sorted_perm_unique; [apply rsort_sorted|exact Hs|]. rewrite <- rsort_perm.
    apply NoDup_Permutation; [apply distinct_NoDup|exact Hnd|]. intros x. rewrite distinct_In, in_map_iff. split.
    - intros ([x' y] & <- & Hin). apply in_concat in Hin as (l & Hl & Hin).
      apply in_map_iff in Hl as (d & <- & _). apply in_map_iff in Hin as (x & [= <- <-] & Hx). exact Hx.
    - intros Hx. destruct draws as [|d draws]; [contradiction|]. exists (x, F d x). split; [reflexivity|].
      apply in_concat. eexists. split; [left; reflexivity|]. apply in_map_iff. eauto. }
  rewrite Hkeys. apply map_ext_in. intros x Hx. f_equal. apply rmean_ext. clear Hkeys Hd.
  induction draws as [|d draws IH]; [reflexivity|]. cbn [map concat]. rewrite filter_app, map_app, IH.
  now rewrite (filter_pair x (F d) grid Hnd Hx).
Qed.

Lemma linspace_sorted lo hi n : (lo < hi)%R \/ n <= 1 -> StronglySorted Rlt (linspace lo hi n).
Proof.
  intros H. unfold linspace, range.
  destruct (le_lt_dec n 1) as [Hn|Hn].
  { destruct n as [|[|n]]; [constructor|repeat constructor|lia]. }
  destruct H as [H|H]; [|lia].
  assert (Hpos : (0 < (hi - lo) / INR (n - 1))%R).
  { apply Rdiv_lt_0_compat; [lra|]. apply lt_0_INR. lia. }
  set (h := ((hi - lo) / INR (n - 1))%R) in *. clearbody h. generalize 0. clear Hn H.
  induction n as [|n IH]; intros a; [constructor|]. cbn [seq map]. constructor; [apply IH|].
  apply Forall_forall. intros y Hy. apply in_map_iff in Hy as (k & <- & Hk). apply in_seq in Hk.
  assert (INR a < INR k)%R by (apply lt_INR; lia). nra.
Qed.

(** ** Positions *)

Lemma dget_map_key {V} (h : string -> V) l g : In g l -> dget (map (fun f => (f, h f)) l) g = Some (h g).
Proof.
  induction l as [|x l IH]; intros H; [destruct H|]. cbn [map dget].
  destruct (String.eqb_spec g x) as [E|E]; [now subst|]. apply IH. destruct H; [congruence|assumption].
Qed.
