(** Theorems about process_debug_data.py and filtered_states.py (C48 to C51). *)
Require Import Reals Qreals String Arith ZArith Bool List Lia Lra Sorted.
From Verif Require Import PyBase ListFacts StringFacts ModelSpec ProcessModel CheckModel SpecModel ProcessModelFacts
  SpecParse SpecIndex IndexFacts ParamsIndex ParseParams ParamsVec ExampleModels PropsSpec ParseFacts PropsParse
  ProcessData SpecData PropsData RSum Kalman SpecKalman KalmanFacts KalmanSeq QRWitness Clipping Likelihood
  SpecLikelihood PredictFacts ScheduleFacts LikelihoodFacts LikelihoodRun PropsKalman PropsLikelihood
  DebugData SpecDebug DebugFacts.
Import ListNotations.
Open Scope string_scope.
Open Scope list_scope.
Open Scope nat_scope.

(** Facts about the rows of update_info in terms of the equations of the model. *)
Section Rows.
  Variables (md : model_dict) (p : processed) (n : nat).
  Hypothesis Hwf : wf_dicts md.
  Hypothesis Hp : process_model md = Ok p.
  Hypothesis Hn : has_n_periods md n.
  Let u := p_update p.

  Lemma u_keys : NoDup (map u_key u).
  Proof.
    unfold u. rewrite <- (equations_update md p n Hwf Hp Hn). unfold equations.
    generalize (written_equations md n). intros l. induction l as [|x l IH]; simpl; constructor.
    - intros H. apply filter_In in H as [_ H]. destruct (equation_eq_dec x x); congruence.
    - now apply NoDup_filter.
  Qed.

  Lemma u_sorted : StronglySorted le (map u_period u).
  Proof.
    pose proof (equations_sorted md n) as H. rewrite (equations_update md p n Hwf Hp Hn), map_map in H. exact H.
  Qed.

  Lemma nth_equation k r : nth_error u k = Some r -> nth_error (equations md n) k = Some (u_period r, u_var r).
  Proof. intros H. rewrite (equations_update md p n Hwf Hp Hn). apply (map_nth_error u_key). exact H. Qed.

  Lemma nth_equation_inv k t v : nth_error (equations md n) k = Some (t, v) ->
    exists r, nth_error u k = Some r /\ u_period r = t /\ u_var r = v.
  Proof.
    rewrite (equations_update md p n Hwf Hp Hn), nth_error_map. fold u.
    destruct (nth_error u k) as [r|]; [|discriminate]. intros [= <- <-]. eauto.
  Qed.

  Lemma row_is_measurement r : In r u -> is_measurement_row r = negb (is_anchoring_equation md (u_var r)).
  Proof. intros Hr. rewrite (row_anchoring md p n Hwf Hp Hn r Hr). now rewrite negb_involutive. Qed.

  Lemma measured_rows : every_period_has_measurement md n -> forall r, In r u ->
    exists r', In r' u /\ is_measurement_row r' = true /\ u_period r' = u_period r.
  Proof.
    intros Hev r Hr. apply In_nth_error in Hr as [k Hk]. pose proof (nth_equation k r Hk) as Ek.
    destruct (Hev (u_period r)) as (v & Hv & Ha).
    { apply (equations_period md n _ (u_var r)). now apply nth_error_In in Ek. }
    apply In_nth_error in Hv as [k' Hk']. apply nth_equation_inv in Hk' as (r' & Hr' & Ep & Ev).
    apply nth_error_In in Hr'. exists r'. split; [assumption|]. split; [|assumption].
    rewrite (row_is_measurement r' Hr'), Ev, Ha. reflexivity.
  Qed.

  Lemma row_periods : every_period_has_measurement md n -> forall t, t < n <-> exists r, In r u /\ u_period r = t.
  Proof.
    intros Hev t. split.
    - intros Ht. destruct (Hev t Ht) as (v & Hv & _). apply In_nth_error in Hv as [k Hk].
      apply nth_equation_inv in Hk as (r & Hr & Ep & _). exists r. split; [now apply nth_error_In in Hr|assumption].
    - intros (r & Hr & <-). apply In_nth_error in Hr as [k Hk]. apply nth_equation in Hk.
      apply (equations_period md n _ (u_var r)). now apply nth_error_In in Hk.
  Qed.

  Lemma last_row_of k : last_row u k -> forall r, nth_error u k = Some r ->
    last_measurement_of md n (u_period r) k.
  Proof.
    intros (r & Hr & Hm & Hlast) r0 Hr0. rewrite Hr in Hr0. injection Hr0 as <-. split.
    - exists (u_var r). split; [now apply nth_equation|].
      rewrite (row_is_measurement r) in Hm by (now apply nth_error_In in Hr). now apply negb_true_iff.
    - intros k' v' Hk' Hv'. apply nth_equation_inv in Hv' as (r' & Hr' & Ep & <-).
      specialize (Hlast k' r' Hk' Hr' Ep).
      rewrite (row_is_measurement r') in Hlast by (now apply nth_error_In in Hr'). now apply negb_false_iff.
  Qed.

  Lemma keep_model : every_period_has_measurement md n -> exists keep, keep_updates u = Ok keep /\
    length keep = n /\
    forall t, t < n -> exists k, nth_error keep t = Some k /\ last_measurement_of md n t k /\ k < length u.
  Proof.
    intros Hev. exists (filter (kept u) (range (length u))).
    pose proof (kept_periods u u_keys u_sorted (measured_rows Hev) n (row_periods Hev)) as Hk.
    split; [apply keep_updates_ok; exact (measured_rows Hev)|]. split.
    - apply (f_equal (@length nat)) in Hk. rewrite map_length in Hk. rewrite Hk. apply seq_length.
    - intros t Ht. assert (Hnt : nth_error (map (period_at u) (filter (kept u) (range (length u)))) t = Some t).
      { rewrite Hk. now apply nth_error_range. }
      rewrite nth_error_map in Hnt.
      destruct (nth_error (filter (kept u) (range (length u))) t) as [k|] eqn:Ek; [|discriminate].
      simpl in Hnt. injection Hnt as Hnt. exists k. split; [reflexivity|].
      apply nth_error_In in Ek. apply filter_In in Ek as [Hin Hkept]. apply In_range in Hin.
      split; [|assumption]. apply (kept_spec u u_keys) in Hkept. unfold period_at in Hnt.
      destruct (nth_error u k) as [r|] eqn:Er; [|apply nth_error_None in Er; lia].
      rewrite <- Hnt. now apply last_row_of.
  Qed.
End Rows.

Lemma every_period_has_measurement_measured md n :
  every_period_has_measurement md n -> every_period_measured md n.
Proof. intros H t Ht. destruct (H t Ht) as (v & Hv & _). eauto. Qed.

(** ** Ranges *)

Lemma period_column_ok tb periods : period_column tb = Ok periods ->
  smem "period" (tb_columns tb) = true /\
  Forall2 (fun (row : string -> cell) t => row "period" = CInt t) (tb_rows tb) periods.
Proof.
  unfold period_column, get_column. destruct (smem "period" (tb_columns tb)); [|discriminate]. cbn [rbind].
  intros H. split; [reflexivity|]. rewrite mapM_map in H. apply mapM_ok in H.
  revert H. generalize (tb_rows tb). intros l. revert periods. induction l as [|r l IH]; intros periods H;
    inversion H; subst; constructor; [|auto].
  destruct (r "period"); try discriminate. congruence.
Qed.

Lemma period_column_total tb : smem "period" (tb_columns tb) = true ->
  (forall row, In row (tb_rows tb) -> exists t, row "period" = CInt t) ->
  exists periods, period_column tb = Ok periods.
Proof.
  intros Hs H. unfold period_column, get_column. rewrite Hs. cbn [rbind]. apply mapM_total.
  intros c Hc. apply in_map_iff in Hc as (r & <- & Hr). destruct (H r Hr) as [t ->]. eauto.
Qed.

Lemma group_cells tb periods t name :
  Forall2 (fun (row : string -> cell) t => row "period" = CInt t) (tb_rows tb) periods ->
  group tb periods t name = cells_of_period tb t name.
Proof.
  unfold group, cells_of_period. generalize (tb_rows tb). intros l H.
  induction H as [|r s l periods Hr _ IH]; [reflexivity|]. simpl. rewrite Hr. destruct (s =? t); simpl; now rewrite IH.
Qed.

(** * C50 *)

(** For each factor there is one range per period of the table, in increasing order;
    its ends are the smallest and the largest state of the factor in the period, over
    all rows of the period. *)
Theorem C50_ranges :
  forall tb factors ranges,
    create_state_ranges tb factors = Ok ranges ->
    map fst ranges = factors /\
    forall f rows, In (f, rows) ranges ->
      StronglySorted lt (map fst rows) /\
      (forall t, In t (map fst rows) <-> exists row, In row (tb_rows tb) /\ row "period" = CInt t) /\
      forall t lo hi, In (t, (lo, hi)) rows ->
        is_minimum (cells_of_period tb t f) lo /\ is_maximum (cells_of_period tb t f) hi.
Proof.
  intros tb factors ranges H. unfold create_state_ranges in H.
  apply rbind_ok in H as (periods & Hper & H). apply period_column_ok in Hper as [_ Hper]. split.
  - apply mapM_ok in H. induction H as [|f r l l' Hf _ IH]; [reflexivity|]. simpl. f_equal; [|exact IH].
    destruct (_ && _)%bool; [|discriminate]. injection Hf as <-. reflexivity.
  - intros f rows Hin. apply (mapM_In_inv _ _ _ _ H) in Hin as (f' & Hf & _).
    destruct (_ && _)%bool; [|discriminate]. injection Hf as -> <-.
    rewrite map_map. cbn [fst]. rewrite map_id. split; [apply sorted_nsort|]. split.
    + intros t. rewrite In_nsort. clear -Hper. induction Hper as [|r s l periods Hr _ IH]; simpl.
      * split; [tauto|]. intros (r & [] & _).
      * rewrite IH. split.
        -- intros [->|(r' & Hr' & E)]; eauto.
        -- intros (r' & [<-|Hr'] & E); [left; congruence|right; eauto].
    + intros t lo hi Hin. apply in_map_iff in Hin as (s & [= <- <- <-] & _).
      rewrite (group_cells tb periods s f Hper). split; [apply pd_min_spec|apply pd_max_spec].
Qed.
Print Assumptions C50_ranges.

(** The ranges exist if the table has a column with periods and the factors. *)
Theorem C50_ranges_exist :
  forall tb factors,
    In "period" (tb_columns tb) -> (forall row, In row (tb_rows tb) -> exists t, row "period" = CInt t) ->
    (forall f, In f factors -> In f (tb_columns tb) /\ f <> "period") ->
    exists ranges, create_state_ranges tb factors = Ok ranges.
Proof.
  intros tb factors Hc Hr Hf. unfold create_state_ranges.
  destruct (period_column_total tb (proj2 (smem_In _ _) Hc) Hr) as [periods ->]. cbn [rbind].
  apply mapM_total. intros f Hin. destruct (Hf f Hin) as [H1 H2].
  rewrite (proj2 (smem_In _ _) H1), (proj2 (String.eqb_neq _ _) H2). simpl. eauto.
Qed.
Print Assumptions C50_ranges_exist.

Definition ex_table : table :=
  mk_table ["cog"; "period"; "id"]
    [fun c => if String.eqb c "cog" then CNum 3 else if String.eqb c "period" then CInt 1 else CInt 0;
     fun c => if String.eqb c "cog" then CNum 5 else if String.eqb c "period" then CInt 0 else CInt 0;
     fun c => if String.eqb c "cog" then CNum 4 else if String.eqb c "period" then CInt 1 else CInt 1]%R.

Example C50_nonvacuous : exists ranges rows lo hi,
  create_state_ranges ex_table ["cog"] = Ok ranges /\ In ("cog", rows) ranges /\
  In (1, (Some lo, Some hi)) rows /\ lo = 3%R /\ hi = 4%R.
Proof.
  eexists _, _, _, _. split; [reflexivity|]. split; [left; reflexivity|]. split; [right; left; reflexivity|].
  unfold Rmin, Rmax. destruct (Rle_dec 3 4); [auto|lra].
Qed.

(** * C49 *)

Definition reserved_columns : list string := ["mixture"; "period"; "id"; "measurement"].

Definition residual_cell (x : option R) : cell := match x with Some r => CNum r | None => CNan end.

(** Every table has one row per equation and individual (and mixture element), which
    shows the value from the debug data, the mixture element, and the period and
    variable of the equation. The id of the individual is correct in the table of
    contributions; in the other tables it is the number of the row within the
    equation. *)
Theorem C49_rows :
  forall md p n n_obs out dbg tables,
    wf_dicts md -> process_model md = Ok p -> has_n_periods md n ->
    (forall c, In c reserved_columns -> ~ In c (latent_of md)) ->
    process_debug_data p n_obs out dbg = Ok tables ->
    let nm := n_mixtures_of md in
    length (tb_rows (dt_post_update_states tables)) = length (equations md n) * (n_obs * nm) /\
    length (tb_rows (dt_residuals tables)) = length (equations md n) * (n_obs * nm) /\
    length (tb_rows (dt_residual_sds tables)) = length (equations md n) * (n_obs * nm) /\
    length (tb_rows (dt_all_contributions tables)) = length (equations md n) * n_obs /\
    forall k t v i, nth_error (equations md n) k = Some (t, v) -> i < n_obs ->
      (exists row, nth_error (tb_rows (dt_all_contributions tables)) (k * n_obs + i) = Some row /\
         row "contribution" = CNum (do_all_contributions dbg k i) /\
         row "period" = CInt t /\ row "measurement" = CText v /\ row "id" = CInt i) /\
      forall m, m < nm -> exists rs rr rsd,
        nth_error (tb_rows (dt_post_update_states tables)) (k * (n_obs * nm) + (i * nm + m)) = Some rs /\
        nth_error (tb_rows (dt_residuals tables)) (k * (n_obs * nm) + (i * nm + m)) = Some rr /\
        nth_error (tb_rows (dt_residual_sds tables)) (k * (n_obs * nm) + (i * nm + m)) = Some rsd /\
        (forall j f, nth_error (latent_of md) j = Some f -> rs f = CNum (do_filtered_states dbg k i m j)) /\
        rr "residual" = residual_cell (do_residuals dbg k i m) /\
        rsd "residual" = residual_cell (do_residual_sds dbg k i m) /\
        forall row, In row [rs; rr; rsd] ->
          row "mixture" = CInt m /\ row "period" = CInt t /\ row "measurement" = CText v /\
          row "id" = CInt (i * nm + m).
Proof.
  intros md p n n_obs out dbg tables Hwf Hp Hn Hres H nm.
  destruct (p_dims_eq md p Hp) as (Dl & _ & _ & Dm & _ & _).
  pose proof (l_latent_eq md p Hp) as Ll.
  assert (Hnd : NoDup (latent_of md)) by apply Hwf.
  pose proof (nth_equation_inv md p n Hwf Hp Hn) as Hinv.
  assert (Hlu : length (equations md n) = length (p_update p)).
  { rewrite (equations_update md p n Hwf Hp Hn). apply map_length. }
  unfold process_debug_data in H. rewrite Ll, Dl, Dm in H. fold nm in H.
  apply rbind_ok in H as (post & Epost & H). apply rbind_ok in H as (filt & _ & H).
  apply rbind_ok in H as (rg & _ & H). apply rbind_ok in H as (rsd & Ersd & H).
  apply rbind_ok in H as (rsds & Ersds & H). apply rbind_ok in H as (con & Econ & H).
  injection H as <-. cbn [dt_post_update_states dt_residuals dt_residual_sds dt_all_contributions].
  assert (Hne : p_update p <> []). { intros E. rewrite E in Ersd. discriminate. }
  destruct (post_states_table n_obs nm (length (latent_of md)) (latent_of md) Hnd eq_refl (do_filtered_states dbg)
              (p_update p) Hne Hres) as (t1 & E1 & _ & L1 & R1).
  rewrite Epost in E1. injection E1 as <-.
  destruct (residuals_table n_obs nm (do_residuals dbg) (p_update p) Hne) as (t2 & E2 & _ & L2 & R2).
  rewrite Ersd in E2. injection E2 as <-.
  destruct (residuals_table n_obs nm (do_residual_sds dbg) (p_update p) Hne) as (t3 & E3 & _ & L3 & R3).
  rewrite Ersds in E3. injection E3 as <-.
  destruct (contributions_table n_obs (do_all_contributions dbg) (p_update p) Hne) as (t4 & E4 & _ & L4 & R4).
  rewrite Econ in E4. injection E4 as <-.
  rewrite Hlu. split; [exact L1|]. split; [exact L2|]. split; [exact L3|]. split; [exact L4|].
  intros k t v i Hk Hi. destruct (Hinv k t v Hk) as (r & Hr & <- & <-). split.
  - destruct (R4 k r i Hr Hi) as (row & H1 & H2 & H3 & H4 & H5). exists row. auto.
  - intros m Hm. destruct (R1 k r i m Hr Hi Hm) as (rs & A1 & A2 & A3 & A4 & A5 & A6).
    destruct (R2 k r i m Hr Hi Hm) as (rr & B1 & B2 & B3 & B4 & B5 & B6).
    destruct (R3 k r i m Hr Hi Hm) as (rd & C1 & C2 & C3 & C4 & C5 & C6).
    exists rs, rr, rd. repeat (split; [assumption|]).
    intros row [<-|[<-|[<-|[]]]]; auto.
Qed.
Print Assumptions C49_rows.

(** Proved part: with a single mixture element, every row shows the value and the id of
    the same individual. Missing: several mixture elements, see C49_refuted. *)
Theorem C49_ids_partial :
  forall md p n n_obs out dbg tables,
    wf_dicts md -> process_model md = Ok p -> has_n_periods md n ->
    (forall c, In c reserved_columns -> ~ In c (latent_of md)) -> n_mixtures_of md = 1 ->
    process_debug_data p n_obs out dbg = Ok tables ->
    forall k t v i, nth_error (equations md n) k = Some (t, v) -> i < n_obs ->
      exists rs rr rsd,
        nth_error (tb_rows (dt_post_update_states tables)) (k * n_obs + i) = Some rs /\
        nth_error (tb_rows (dt_residuals tables)) (k * n_obs + i) = Some rr /\
        nth_error (tb_rows (dt_residual_sds tables)) (k * n_obs + i) = Some rsd /\
        (forall j f, nth_error (latent_of md) j = Some f -> rs f = CNum (do_filtered_states dbg k i 0 j)) /\
        rr "residual" = residual_cell (do_residuals dbg k i 0) /\
        rsd "residual" = residual_cell (do_residual_sds dbg k i 0) /\
        forall row, In row [rs; rr; rsd] ->
          row "period" = CInt t /\ row "measurement" = CText v /\ row "id" = CInt i.
Proof.
  intros md p n n_obs out dbg tables Hwf Hp Hn Hres Hm H k t v i Hk Hi.
  destruct (C49_rows md p n n_obs out dbg tables Hwf Hp Hn Hres H) as (_ & _ & _ & _ & Hrows).
  destruct (Hrows k t v i Hk Hi) as [_ Hr]. rewrite Hm in Hr.
  destruct (Hr 0 ltac:(lia)) as (rs & rr & rsd & H1 & H2 & H3 & H4 & H5 & H6 & H7).
  replace (k * (n_obs * 1) + (i * 1 + 0)) with (k * n_obs + i) in * by lia.
  exists rs, rr, rsd. repeat (split; [assumption|]).
  intros row Hrow. destruct (H7 row Hrow) as (_ & A & B & C). replace (i * 1 + 0) with i in C by lia. auto.
Qed.
Print Assumptions C49_ids_partial.

(** With several mixture elements, the rows of every individual but the first one carry
    the id of somebody else: the row of the second individual and first mixture
    element carries the number of mixture elements as id. *)
Theorem C49_refuted :
  forall md p n n_obs out dbg tables,
    wf_dicts md -> process_model md = Ok p -> has_n_periods md n ->
    (forall c, In c reserved_columns -> ~ In c (latent_of md)) -> 2 <= n_mixtures_of md ->
    process_debug_data p n_obs out dbg = Ok tables ->
    forall k t v i m, nth_error (equations md n) k = Some (t, v) -> i < n_obs -> m < n_mixtures_of md ->
      exists rr, nth_error (tb_rows (dt_residuals tables))
                   (k * (n_obs * n_mixtures_of md) + (i * n_mixtures_of md + m)) = Some rr /\
        rr "residual" = residual_cell (do_residuals dbg k i m) /\ rr "mixture" = CInt m /\
        (rr "id" = CInt i <-> i = 0 /\ m = 0).
Proof.
  intros md p n n_obs out dbg tables Hwf Hp Hn Hres Hm H k t v i m Hk Hi Hlt.
  destruct (C49_rows md p n n_obs out dbg tables Hwf Hp Hn Hres H) as (_ & _ & _ & _ & Hrows).
  destruct (Hrows k t v i Hk Hi) as [_ Hr].
  destruct (Hr m Hlt) as (rs & rr & rsd & H1 & H2 & H3 & H4 & H5 & H6 & H7).
  exists rr. split; [exact H2|]. split; [exact H5|].
  destruct (H7 rr ltac:(simpl; tauto)) as (A & _ & _ & C). split; [exact A|]. rewrite C. split.
  - intros [= E]. nia.
  - intros [-> ->]. reflexivity.
Qed.
Print Assumptions C49_refuted.

(** * C48 *)

Section FilteredStates.
  Variable qr : qr_function.
  Variable nan : R.
  Variable tfunc : dict (list R) -> vec -> vec.

  Lemma debug_total md p n n_obs out dbg :
    wf_dicts md -> process_model md = Ok p -> has_n_periods md n -> 1 <= n ->
    every_period_has_measurement md n -> ~ In "period" (latent_of md) -> ~ In "id" (latent_of md) ->
    exists tables, process_debug_data p n_obs out dbg = Ok tables /\
      tb_columns (dt_filtered_states tables) = latent_of md ++ ["period"; "id"] /\
      length (tb_rows (dt_filtered_states tables)) = n * n_obs /\
      forall t i, t < n -> i < n_obs -> exists row k,
        nth_error (tb_rows (dt_filtered_states tables)) (t * n_obs + i) = Some row /\
        row "period" = CInt t /\ row "id" = CInt i /\
        last_measurement_of md n t k /\ k < length (p_update p) /\
        forall j f, nth_error (latent_of md) j = Some f ->
          row f = CNum (rsum (n_mixtures_of md)
                          (fun m => do_filtered_states dbg k i m j * exp (do_logw dbg k i m)))%R.
  Proof.
    intros Hwf Hp Hn Hn1 Hev Hper Hid.
    destruct (p_dims_eq md p Hp) as (Dl & _ & _ & Dm & _ & _).
    pose proof (l_latent_eq md p Hp) as Ll.
    assert (Hnd : NoDup (latent_of md)) by apply Hwf.
    destruct (keep_model md p n Hwf Hp Hn Hev) as (keep & Ekeep & Lkeep & Hkeep).
    assert (Hkne : keep <> []) by (intros ->; simpl in Lkeep; lia).
    assert (Hne : p_update p <> []).
    { intros E. destruct (Hkeep 0 ltac:(lia)) as (k & _ & _ & Hk). rewrite E in Hk. simpl in Hk. lia. }
    unfold process_debug_data. rewrite Ll, Dl, Dm.
    destruct (post_states_total n_obs (n_mixtures_of md) (length (latent_of md)) (latent_of md) eq_refl
                (do_filtered_states dbg) (p_update p) Hne) as (t1 & ->). cbn [rbind].
    destruct (filtered_states_table n_obs (n_mixtures_of md) (length (latent_of md)) (latent_of md) Hnd eq_refl
                (do_filtered_states dbg) (do_logw dbg) (p_update p) keep Ekeep Hkne Hper Hid) as (tf & -> & Hc & Hl & Hrows).
    cbn [rbind]. rewrite Lkeep in Hl.
    destruct (C50_ranges_exist tf (latent_of md)) as [rg ->].
    { rewrite Hc. apply in_or_app. right. now left. }
    { intros row Hrow. apply In_nth_error in Hrow as [q Hq].
      assert (Hlt : q < n * n_obs). { rewrite <- Hl. apply nth_error_Some. congruence. }
      destruct n_obs as [|no]; [lia|].
      destruct (Hkeep (q / S no)) as (k & Hk & _). { apply Nat.div_lt_upper_bound; lia. }
      destruct (Hrows (q / S no) k (q mod S no) Hk) as (row' & Hr' & Hp' & _). { apply Nat.mod_upper_bound. lia. }
      replace (q / S no * S no + q mod S no) with q in Hr' by (rewrite Nat.mul_comm; apply Nat.div_mod; lia).
      rewrite Hq in Hr'. injection Hr' as <-. eauto. }
    { intros f Hf. split; [rewrite Hc; apply in_or_app; now left|]. intros ->. contradiction. }
    cbn [rbind].
    destruct (residuals_table n_obs (n_mixtures_of md) (do_residuals dbg) (p_update p) Hne) as (t2 & -> & _). cbn [rbind].
    destruct (residuals_table n_obs (n_mixtures_of md) (do_residual_sds dbg) (p_update p) Hne) as (t3 & -> & _). cbn [rbind].
    destruct (contributions_table n_obs (do_all_contributions dbg) (p_update p) Hne) as (t4 & -> & _). cbn [rbind].
    eexists. split; [reflexivity|]. cbn [dt_filtered_states]. split; [exact Hc|]. split; [exact Hl|].
    intros t i Ht Hi. destruct (Hkeep t Ht) as (k & Hk & Hlast & Hklt).
    destruct (Hrows t k i Hk Hi) as (row & H1 & H2 & H3 & H4). exists row, k. auto 8.
  Qed.

  (** If every period has a measurement equation, the table of filtered states has one
      row per period and individual; it shows the period, the number of the
      individual, and for each factor the average over the mixture elements of the
      state after the last measurement equation of the period, weighted with the
      probabilities at that point. The processing of the debug data raises no errors
      of its own. Missing: models with a period without measurement equation and
      models with factors called "period" or "id", see C48_refuted. *)
  Theorem C48_filtered_states_partial :
    forall md p n df ids lv ar params ps params_df,
      likelihood_setting md p n df ids lv ar params ps ->
      get_params_vec params_df (params_index_of p) = Ok params ->
      every_period_has_measurement md n ->
      ~ In "period" (latent_of md) -> ~ In "id" (latent_of md) ->
      exists f, debug_loglike qr nan tfunc md df = Ok f /\
        (forall e, f params_df = Err e -> log_likelihood qr nan tfunc p ar true params = Err e) /\
        forall tables, f params_df = Ok tables ->
          exists recs, run_model qr nan tfunc p (length ids) ps ar (schedule md n) = Ok recs /\
            is_filtered_table md n (length ids) recs (dt_filtered_states tables).
  Proof.
    intros md p n df ids lv ar params ps params_df H Hv Hev Hper Hid.
    assert (Hwf : wf_dicts md) by apply H. assert (Hp : process_model md = Ok p) by apply H.
    assert (Hn : has_n_periods md n) by apply H.
    pose proof (n_ge_1 md p n df ids lv ar params ps H) as Hn1.
    pose proof (ar_shapes md p n df ids lv ar params ps H) as (_ & _ & Hobs).
    destruct (keep_model md p n Hwf Hp Hn Hev) as (keep & _ & _ & Hkeep).
    assert (Hne : p_update p <> []).
    { intros E. destruct (Hkeep 0 ltac:(lia)) as (k & _ & _ & Hk). rewrite E in Hk. simpl in Hk. lia. }
    assert (Har : process_data 1%R req df (p_labels p) (p_update p) (p_anch p) true = Ok ar) by apply H.
    unfold debug_loglike. rewrite Hp. cbn [rbind]. rewrite Har. cbn [rbind]. eexists. split; [reflexivity|].
    cbv beta. rewrite Hv. cbn [rbind].
    destruct (shapes_fit (length ids) (n_mixtures (p_dims p)) (n_observed (p_dims p))) eqn:Hfit.
    2:{ rewrite (likelihood_misfits qr nan tfunc md p n df ids lv ar params ps true H Hfit Hne). cbn [rbind].
        split; [intros e [= <-]; reflexivity|]. intros tables E. discriminate. }
    destruct (likelihood_events qr nan tfunc md p n df ids lv ar params ps true H Hfit)
      as (recs & out & Er & Lr & Eo & Hr).
    rewrite Eo. cbn [rbind]. destruct Hr as (_ & _ & _ & Hd). destruct (Hd eq_refl) as (dbg & Ed & _ & _ & Hd').
    rewrite Ed, Hobs.
    destruct (debug_total md p n (length ids) out dbg Hwf Hp Hn Hn1 Hev Hper Hid) as (tables & Et & Hc & Hl & Hrows).
    cbv iota beta. rewrite Et. split; [intros e E; discriminate|]. intros tables' [= <-].
    exists recs. split.
    { rewrite <- (schedule_code md p n Hwf Hp Hn (every_period_has_measurement_measured md n Hev)). exact Er. }
    split; [exact Hc|]. split; [exact Hl|]. intros t i Ht Hi.
    destruct (Hrows t i Ht Hi) as (row & k & H1 & H2 & H3 & H4 & H5 & H6).
    destruct (nth_error recs k) as [rec|] eqn:Ek; [|apply nth_error_None in Ek; lia].
    exists row, k, rec. repeat (split; [assumption || reflexivity|]).
    intros j f Hj. rewrite (H6 j f Hj). f_equal. apply rsum_ext. intros m _.
    destruct (Hd' k rec Ek) as (_ & _ & _ & -> & ->). apply Rmult_comm.
  Qed.
End FilteredStates.
Print Assumptions C48_filtered_states_partial.
