(** Theorems about the combination of transition plots (C84, C85). *)
Require Import Reals QArith String Arith ZArith Bool List Lia Lra.
From Verif Require Import PyBase ListFacts StringFacts Heatmap PropsHeatmapFigure TransitionPlots.
Import ListNotations.
Open Scope string_scope.
Open Scope list_scope.
Open Scope nat_scope.

(** ** Orders *)

(** [s] appears before [s'] in a list. *)
Definition before (l : list string) (s s' : string) : Prop :=
  exists i j, i < j /\ nth_error l i = Some s /\ nth_error l j = Some s' /\ forall k, k < j -> nth_error l k <> Some s'.

(** The names that the user asks for or, by default, all names without repetition in the
    order of their first appearance. *)
Inductive shown {T} (select : string * string -> string) (d : plots T) : order_arg -> list string -> Prop :=
| shown_one s : shown select d (OneName s) [s]
| shown_list l : shown select d (Names l) l
| shown_default l : NoDup l ->
    (forall s, In s l <-> In s (map (fun kv => select (fst kv)) d)) ->
    (forall s s', before l s s' -> before (map (fun kv => select (fst kv)) d) s s') ->
    shown select d DefaultOrder l.

Lemma key_names_app {T} select (d : plots T) s acc :
  fold_left (fun acc kv => add_new acc (select (fst kv))) (d ++ [s]) acc
  = add_new (fold_left (fun acc kv => add_new acc (select (fst kv))) d acc) (select (fst s)).
Proof. now rewrite fold_left_app. Qed.

Lemma key_names_shown {T} select (d : plots T) : shown select d DefaultOrder (key_names select d).
Proof.
  unfold key_names.
  induction d as [|kv d IH] using rev_ind.
  - constructor; [constructor|intros s; simpl; tauto|]. intros s s' (i & j & _ & H & _). destruct i; discriminate.
  - rewrite key_names_app. set (l := fold_left _ d []) in *. inversion IH as [| |l' Hnd Hin Hbef E1 E2]. subst l'.
    set (x := select (fst kv)).
    assert (Emap : map (fun kv => select (fst kv)) (d ++ [kv]) = map (fun kv => select (fst kv)) d ++ [x]).
    { now rewrite map_app. }
    unfold add_new. destruct (smem x l) eqn:Em.
    + apply smem_In in Em. constructor; [exact Hnd| |].
      * intros s. rewrite Emap, in_app_iff, Hin. simpl. split; [tauto|]. intros [H|[<-|[]]]; [exact H|now apply Hin].
      * intros s s' H. apply Hbef in H as (i & j & Hij & H1 & H2 & H3). rewrite Emap. exists i, j.
        assert (j < length (map (fun kv => select (fst kv)) d)) by (apply nth_error_Some; congruence).
        split; [exact Hij|]. rewrite !nth_error_app1 by lia. split; [exact H1|]. split; [exact H2|].
        intros k Hk. rewrite nth_error_app1 by lia. now apply H3.
    + assert (Hx : ~ In x l). { intros H. apply smem_In in H. congruence. }
      constructor.
      * assert (G : forall (l : list string) y, NoDup l -> ~ In y l -> NoDup (l ++ [y])).
        { clear. induction l as [|z l IH]; intros y Hn Hy; [repeat constructor; tauto|]. inversion Hn; subst.
          simpl. constructor; [rewrite in_app_iff; simpl; intuition (subst; simpl in *; tauto)|].
          apply IH; [assumption|]. simpl in Hy. tauto. }
        now apply G.
      * intros s. rewrite Emap, !in_app_iff, Hin. tauto.
      * intros s s' (i & j & Hij & H1 & H2 & H3). rewrite Emap.
        destruct (Nat.lt_ge_cases j (length l)) as [Hj|Hj].
        -- assert (Hb : before l s s').
           { exists i, j. split; [exact Hij|]. rewrite !nth_error_app1 in H1, H2 by lia. split; [exact H1|]. split; [exact H2|].
             intros k Hk. specialize (H3 k Hk). now rewrite nth_error_app1 in H3 by lia. }
           apply Hbef in Hb as (i' & j' & Hij' & K1 & K2 & K3). exists i', j'.
           assert (j' < length (map (fun kv => select (fst kv)) d)) by (apply nth_error_Some; congruence).
           split; [exact Hij'|]. rewrite !nth_error_app1 by lia. split; [exact K1|]. split; [exact K2|].
           intros k Hk. rewrite nth_error_app1 by lia. now apply K3.
        -- rewrite nth_error_app2 in H2 by exact Hj.
           destruct (j - length l) as [|[|q]] eqn:Eq; try discriminate. injection H2 as <-.
           assert (i < length l) by lia. rewrite nth_error_app1 in H1 by assumption. apply nth_error_In in H1.
           apply Hin in H1. apply In_nth_error in H1 as [i' Hi'].
           exists i', (length (map (fun kv => select (fst kv)) d)).
           assert (Hlt : i' < length (map (fun kv => select (fst kv)) d)) by (apply nth_error_Some; congruence).
           split; [exact Hlt|]. rewrite nth_error_app1 by exact Hlt. split; [exact Hi'|].
           rewrite nth_error_app2, Nat.sub_diag by lia. split; [reflexivity|].
           intros k Hk E. rewrite nth_error_app1 in E by exact Hk. apply nth_error_In in E. apply Hx. now apply Hin.
Qed.

Lemma process_order_shown {T} select a (d : plots T) : shown select d a (process_order select a d).
Proof. destruct a; [apply key_names_shown|constructor|constructor]. Qed.

(** ** Names on the axes *)

(** The name that is displayed: that of the user, if there is one. *)
Definition displayed (mapping : option (dict string)) (factor : string) : string :=
  match mapping with
  | Some d => match dget d factor with Some name => name | None => factor end
  | None => factor
  end.

Lemma extend_mapping fs : forall d f,
  dget (fold_left (fun d f => if smem f (dkeys d) then d else d ++ [(f, f)]) fs d) f
  = match dget d f with
    | Some n => Some n
    | None => if smem f fs then Some f else None
    end.
Proof.
  induction fs as [|g fs IH]; intros d f; cbn [fold_left].
  { simpl. now destruct (dget d f). }
  rewrite IH. cbn [smem existsb]. destruct (smem g (dkeys d)) eqn:E.
  - destruct (dget d f) as [m|] eqn:Ed; [reflexivity|].
    destruct (String.eqb_spec f g) as [->|Hne]; [|reflexivity].
    apply smem_In in E. apply dget_None in Ed. contradiction.
  - rewrite dget_app. destruct (dget d f) as [m|] eqn:Ed; [reflexivity|]. cbn [dget].
    now destruct (String.eqb_spec f g) as [->|Hne].
Qed.

Lemma mapping_displayed fm fs f : In f fs -> dget (process_factor_mapping fm fs) f = Some (displayed fm f).
Proof.
  intros Hf. apply smem_In in Hf. unfold process_factor_mapping, displayed. destruct fm as [d|]; rewrite extend_mapping.
  - destruct (dget d f); [reflexivity|]. now rewrite Hf.
  - cbn [dget]. now rewrite Hf.
Qed.

(** ** Grids *)

Lemma list_prod_length {A B} (l : list A) (l' : list B) : length (list_prod l l') = length l * length l'.
Proof.
  induction l as [|x l IH]; [reflexivity|]. cbn [list_prod]. now rewrite app_length, map_length, IH.
Qed.

Lemma default_grid sharey c r : 0 < c -> 0 < r -> exists g, get_grid sharey c r = Ok g /\ make_subplots g = Ok tt.
Proof.
  intros Hc Hr. unfold get_grid. destruct c as [|c]; [lia|]. cbn [Nat.eqb]. eexists. split; [reflexivity|].
  unfold make_subplots. cbn [gr_rows gr_columns gr_horizontal gr_vertical].
  set (h := (if sharey then 1 / (INR (S c) * 6) else 2 * (1 / (INR (S c) * 6)))%R).
  assert (Hpos : (0 < INR (S c))%R) by (apply lt_0_INR; lia).
  assert (Hh : (0 <= h <= 1 / (INR (S c) * 3))%R).
  { assert (H1 : (0 < 1 / (INR (S c) * 6))%R) by (apply Rdiv_lt_0_compat; lra).
    assert (H2 : (1 / (INR (S c) * 3) = 2 * (1 / (INR (S c) * 6)))%R) by (field; lra).
    rewrite H2. unfold h. destruct sharey; lra. }
  assert (Eh : (S c =? 1) || (if Rle_dec h (1 / (INR (S c) - 1)) then true else false) = true).
  { destruct c as [|c]; [reflexivity|]. destruct (Rle_dec h (1 / (INR (S (S c)) - 1))) as [_|F]; [apply orb_true_r|].
    exfalso. apply F. apply Rle_trans with (1 / (INR (S (S c)) * 3))%R; [apply Hh|].
    assert (Hx : (1 <= INR (S c))%R) by (change 1%R with (INR 1); apply le_INR; lia). rewrite (S_INR (S c)) in *.
    apply Rmult_le_compat_l; [lra|]. apply Rinv_le_contravar; lra. }
  assert (Ev : match (if 1 <? r then Some (1 / (INR r - 1) / 4)%R else None) with
          | None => true
          | Some v => (if Rle_dec 0 v then true else false)
                    && ((r =? 1) || if Rle_dec v (1 / (INR r - 1)) then true else false)
          end = true).
  { destruct (Nat.ltb_spec 1 r) as [Hr1|]; [|reflexivity].
    assert (Hx : (1 < INR r)%R) by (change 1%R with (INR 1); now apply lt_INR).
    assert (H1 : (0 < 1 / (INR r - 1))%R) by (apply Rdiv_lt_0_compat; lra).
    destruct (Rle_dec 0 (1 / (INR r - 1) / 4)) as [_|F]; [|exfalso; lra].
    destruct (Rle_dec (1 / (INR r - 1) / 4) (1 / (INR r - 1))) as [_|F]; [|exfalso; lra]. apply orb_true_r. }
  rewrite (proj2 (Nat.leb_le 1 r)) by lia. rewrite (proj2 (Nat.leb_le 1 (S c))) by lia.
  destruct (Rle_dec 0 h) as [_|F]; [|exfalso; lra]. cbn [andb]. rewrite Eh, Ev. reflexivity.
Qed.

Lemma pair_eqb_spec a b : pair_eqb a b = true <-> a = b.
Proof.
  unfold pair_eqb. rewrite andb_true_iff, !String.eqb_eq. destruct a, b. cbn [fst snd]. split; [intros [-> ->]; reflexivity|].
  intros [= -> ->]. auto.
Qed.

Lemma get_plot_spec {T} (d : plots T) key : NoDup (map fst d) ->
  (forall traces, In (key, traces) d -> get_plot d key = traces) /\
  ((forall traces, ~ In (key, traces) d) -> get_plot d key = []).
Proof.
  intros Hnd. unfold get_plot. destruct (find (fun kv => pair_eqb key (fst kv)) d) as [[k tr]|] eqn:E.
  - apply find_some in E as [Hin E]. cbn [fst snd] in *. apply pair_eqb_spec in E. subst k. split.
    + intros traces H. clear -Hnd Hin H. induction d as [|[k x] d IH]; [destruct Hin|].
      inversion Hnd as [|? ? Hni Hnd']; subst. cbn [fst] in *. destruct Hin as [E1|Hin], H as [E2|H].
      * congruence.
      * exfalso. apply Hni. apply in_map_iff. exists (key, traces). split; [cbn; congruence|exact H].
      * exfalso. apply Hni. apply in_map_iff. exists (key, tr). split; [cbn; congruence|exact Hin].
      * auto.
    + intros H. now apply H in Hin.
  - split; [|reflexivity]. intros traces H. pose proof (find_none _ _ E _ H) as F. cbn [fst] in F.
    now rewrite (proj2 (pair_eqb_spec key key) eq_refl) in F.
Qed.

(** * C84 *)

(** The combined figure is a grid. A column belongs to an input factor, a row to an
    output factor; both are those of the user or all factors of the plots. A cell shows
    the traces of its plot and nothing else, or nothing if there is no such plot. The
    titles are the names of the user, if there are any; only the first column has titles
    at the vertical axis and only the first cell contributes to the legend. The default
    spaces are accepted for any number of plots. *)
Theorem C84_combined_figure :
  forall T (d : plots T) column_order row_order fm sharey,
    NoDup (map fst d) ->
    exists columns rows,
      shown fst d column_order columns /\ shown snd d row_order rows /\
      (columns = [] \/ rows = [] ->
       exists e, combine_transition_plots d column_order row_order fm sharey = Err e) /\
      (columns <> [] -> rows <> [] -> exists cells fm',
         combine_transition_plots d column_order row_order fm sharey = Ok (cells, fm') /\
         map (fun s => (sp_row s, sp_column s)) cells
           = list_prod (seq 0 (length rows)) (seq 0 (length columns)) /\
         forall s, In s cells -> exists input output,
           nth_error columns (sp_column s) = Some input /\ nth_error rows (sp_row s) = Some output /\
           (forall traces, In ((input, output), traces) d -> sp_traces s = traces) /\
           ((forall traces, ~ In ((input, output), traces) d) -> sp_traces s = []) /\
           (sp_legend s = true <-> sp_row s = 0 /\ sp_column s = 0) /\
           sp_xtitle s = displayed fm input /\
           sp_ytitle s = if sp_column s =? 0 then Some (displayed fm output) else None).
Proof.
  intros T d co ro fm sharey Hnd.
  exists (process_order fst co d), (process_order snd ro d).
  split; [apply process_order_shown|]. split; [apply process_order_shown|].
  unfold combine_transition_plots. cbv zeta.
  generalize (process_order fst co d) as columns. generalize (process_order snd ro d) as rows. intros rows columns.
  split.
  - intros H. unfold get_grid. destruct (length columns) as [|c] eqn:Ec; cbn [Nat.eqb];
      [now exists OtherError|].
    destruct H as [H|H]; [subst columns; discriminate|]. rewrite H. cbn [length rbind].
    unfold make_subplots. cbn [gr_rows Nat.leb andb rbind]. now exists ValueError.
  - intros Hc Hr. destruct (default_grid sharey (length columns) (length rows)) as (g & -> & Eg).
    { destruct columns; [contradiction|simpl; lia]. } { destruct rows; [contradiction|simpl; lia]. }
    cbn [rbind]. cbv zeta. rewrite Eg. cbn [rbind].
    set (mapping := process_factor_mapping fm (columns ++ rows)).
    set (idx := list_prod (range (length rows)) (range (length columns))).
    assert (Hlen : length (list_prod rows columns) = length idx).
    { unfold idx, range. now rewrite !list_prod_length, !seq_length. }
    match goal with |- context [mapM ?f ?l] =>
      assert (G : forall x, In x l -> exists s, f x = Ok s /\ (sp_row s, sp_column s) = snd x /\
                exists input output,
                nth_error columns (sp_column s) = Some input /\ nth_error rows (sp_row s) = Some output /\
                (forall traces, In ((input, output), traces) d -> sp_traces s = traces) /\
                ((forall traces, ~ In ((input, output), traces) d) -> sp_traces s = []) /\
                (sp_legend s = true <-> sp_row s = 0 /\ sp_column s = 0) /\
                sp_xtitle s = displayed fm input /\
                sp_ytitle s = if sp_column s =? 0 then Some (displayed fm output) else None)
    end.
    { intros [[o i] [r c]] Hin.
      assert (Hpos : nth_error columns c = Some i /\ nth_error rows r = Some o).
      { clear -Hin. unfold idx, range in Hin.
        assert (GG : forall a b (rows : list string),
          In ((o, i), (r, c)) (combine (list_prod rows columns) (list_prod (seq a (length rows)) (seq b (length columns)))) ->
          b <= c /\ nth_error columns (c - b) = Some i /\ a <= r /\ nth_error rows (r - a) = Some o).
        { intros a b. revert a.
          assert (Happ : forall (A B : Type) (l1 l2 : list A) (m1 m2 : list B), length l1 = length m1 ->
                    combine (l1 ++ l2) (m1 ++ m2) = combine l1 m1 ++ combine l2 m2).
          { clear. intros A B l1. induction l1 as [|x l1 IH]; intros l2 [|y m1] m2 H; try discriminate; [reflexivity|].
            simpl. f_equal. apply IH. now injection H. }
          assert (Hrow : forall o' a, In ((o, i), (r, c)) (combine (map (fun y => (o', y)) columns) (map (fun y => (a, y)) (seq b (length columns)))) ->
                    o' = o /\ a = r /\ b <= c /\ nth_error columns (c - b) = Some i).
          { clear. intros o' a. revert b. induction columns as [|x columns IH]; intros b H; [destruct H|].
            cbn [map length seq combine] in H. destruct H as [H|H].
            - injection H as <- <- <- <-. rewrite Nat.sub_diag. auto.
            - apply IH in H as (H1 & H2 & H3 & H4). split; [exact H1|]. split; [exact H2|]. split; [lia|].
              replace (c - b) with (S (c - S b)) by lia. exact H4. }
          clear Hin. intros a rs. revert a. induction rs as [|o' rs IH]; intros a H; [destruct H|].
          cbn [length seq list_prod] in H. rewrite Happ in H by (now rewrite !map_length, seq_length).
          apply in_app_or in H as [H|H].
          - apply Hrow in H as (-> & -> & H1 & H2). rewrite Nat.sub_diag. auto.
          - apply IH in H as (H1 & H2 & H3 & H4). split; [exact H1|]. split; [exact H2|]. split; [lia|].
            replace (r - a) with (S (r - S a)) by lia. exact H4. }
        apply GG in Hin as (_ & H1 & _ & H2). rewrite Nat.sub_0_r in H1, H2. auto. }
      destruct Hpos as [Hi Ho]. cbn [fst snd].
      unfold dget_err. unfold mapping.
      rewrite (mapping_displayed fm (columns ++ rows) i) by (apply in_or_app; left; now apply nth_error_In in Hi).
      rewrite (mapping_displayed fm (columns ++ rows) o) by (apply in_or_app; right; now apply nth_error_In in Ho).
      cbn [rbind]. destruct (get_plot_spec d (i, o) Hnd) as [P1 P2].
      assert (Hleg : (r =? 0) && (c =? 0) = true <-> r = 0 /\ c = 0).
      { now rewrite andb_true_iff, !Nat.eqb_eq. }
      destruct (c =? 0) eqn:Ec; cbn [rbind]; eexists; (split; [reflexivity|]); cbn [sp_row sp_column sp_traces sp_legend sp_xtitle sp_ytitle];
        (split; [reflexivity|]); exists i, o; rewrite ?Ec; auto 9. }
    match goal with |- context [mapM ?f ?l] => destruct (mapM_total f l) as [cells Ecells] end.
    { intros x Hx. destruct (G x Hx) as (s & E & _). eauto. }
    rewrite Ecells. cbn [rbind]. eexists cells, _. split; [reflexivity|]. split.
    + transitivity (map snd (combine (list_prod rows columns) idx)); [|now apply map_snd_combine].
      apply mapM_ok in Ecells. clear -Ecells G. induction Ecells as [|x s l l' E _ IH]; [reflexivity|].
      cbn [map]. f_equal.
      * destruct (G x) as (s' & E' & H & _); [now left|]. rewrite E in E'. injection E' as <-. exact H.
      * apply IH. intros y Hy. apply G. now right.
    + intros s Hs. apply (mapM_In_inv _ _ _ _ Ecells) in Hs as (x & E & Hx).
      destruct (G x Hx) as (s' & E' & _ & H). rewrite E in E'. injection E' as <-. exact H.
Qed.
Print Assumptions C84_combined_figure.

(** The default order is determined by the plots. *)
Lemma shown_unique {T} select (d : plots T) a l l' : shown select d a l -> shown select d a l' -> l = l'.
Proof.
  intros H1 H2. inversion H1 as [s Ea|l1 Ea|l1 Hnd1 Hel1 Hor1 Ea]; subst; inversion H2 as [s2 Ea|l2 Ea|l2 Hnd2 Hel2 Hor2 Ea]; subst; try reflexivity.
  set (names := map (fun kv => select (fst kv)) d) in *.
  assert (Hanti : forall a b, before names a b -> before names b a -> False).
  { intros a b (i & j & Hij & Hi & Hj & Hno) (i' & j' & Hij' & Hi' & Hj' & Hno').
    destruct (Nat.lt_ge_cases i' j) as [Hl|Hl]; [now apply (Hno _ Hl)|].
    apply (Hno' i); [lia|exact Hi]. }
  assert (Hel : forall s, In s l <-> In s l') by (intros s; now rewrite Hel1, Hel2).
  clear H1 H2 Hel1 Hel2. revert l' Hnd2 Hor2 Hel. induction l as [|x l IH]; intros l' Hnd2 Hor2 Hel.
  { destruct l' as [|y l']; [reflexivity|]. exfalso. apply (Hel y). now left. }
  destruct l' as [|y l']; [exfalso; apply (Hel x); now left|].
  assert (Hhead : forall a b (m : list string), NoDup (a :: m) -> In b m -> before (a :: m) a b).
  { clear. intros a b m Hnd Hb. apply In_nth_error in Hb as [j Hj]. exists 0, (S j).
    split; [lia|]. split; [reflexivity|]. split; [exact Hj|]. intros k Hk E. rewrite NoDup_nth_error in Hnd.
    assert (k = S j); [|lia]. apply Hnd; [apply nth_error_Some; now rewrite E|]. now rewrite E. }
  assert (Htail : forall a (m : list string), NoDup (a :: m) -> forall s s', before m s s' -> before (a :: m) s s').
  { clear. intros a m Hnd s s' (i & j & Hij & Hi & Hj & Hno). exists (S i), (S j). split; [lia|]. split; [exact Hi|].
    split; [exact Hj|]. intros [|k] Hk E; [|apply (Hno k); [lia|exact E]].
    cbn in E. injection E as ->. inversion Hnd as [|? ? Hni _]; subst. apply Hni. now apply nth_error_In in Hj. }
  assert (x = y).
  { destruct (string_dec x y) as [|Hne]; [assumption|]. exfalso.
    assert (Hx : In x l') by (destruct (proj1 (Hel x) (or_introl eq_refl)) as [E|]; [congruence|assumption]).
    assert (Hy : In y l) by (destruct (proj2 (Hel y) (or_introl eq_refl)) as [E|]; [congruence|assumption]).
    apply (Hanti x y); [apply Hor1|apply Hor2]; now apply Hhead. }
  subst y. f_equal. inversion Hnd1 as [|? ? Hn1 Hnd1']; subst. inversion Hnd2 as [|? ? Hn2 Hnd2']; subst. apply IH; auto.
  intros s. split; intros Hs.
  - destruct (proj1 (Hel s) (or_intror Hs)) as [E|]; [subst; contradiction|assumption].
  - destruct (proj2 (Hel s) (or_intror Hs)) as [E|]; [subst; contradiction|assumption].
Qed.

Lemma map_NoDup_inj {A B} (f : A -> B) l : NoDup (map f l) -> forall x y, In x l -> In y l -> f x = f y -> x = y.
Proof.
  induction l as [|z l IH]; intros Hnd x y Hx Hy E; [destruct Hx|]. cbn [map] in Hnd. inversion Hnd as [|? ? Hni Hnd']; subst.
  destruct Hx as [->|Hx], Hy as [->|Hy]; [reflexivity| | |auto].
  - exfalso. apply Hni. rewrite E. now apply in_map.
  - exfalso. apply Hni. rewrite <- E. now apply in_map.
Qed.

Lemma list_prod_NoDup {A B} (l : list A) (l' : list B) : NoDup l -> NoDup l' -> NoDup (list_prod l l').
Proof.
  intros Hl Hl'. induction Hl as [|x l Hni Hl IH]; [constructor|]. cbn [list_prod].
  apply NoDup_app_intro; [|exact IH|].
  - apply FinFun.Injective_map_NoDup; [intros a b [=]; assumption|exact Hl'].
  - intros [a b] H1 H2. apply in_map_iff in H1 as (? & [= <- <-] & _). apply in_prod_iff in H2 as [H2 _]. contradiction.
Qed.

(** By default, every plot appears in the figure, in exactly one cell. *)
Theorem C84_every_plot_is_shown :
  forall T (d : plots T) fm sharey input output traces,
    NoDup (map fst d) -> In ((input, output), traces) d ->
    exists columns rows cells fm',
      shown fst d DefaultOrder columns /\ shown snd d DefaultOrder rows /\
      combine_transition_plots d DefaultOrder DefaultOrder fm sharey = Ok (cells, fm') /\
      exists! s, In s cells /\ sp_traces s = traces /\
        nth_error columns (sp_column s) = Some input /\ nth_error rows (sp_row s) = Some output.
Proof.
  intros T d fm sharey input output traces Hnd Hin.
  destruct (C84_combined_figure T d DefaultOrder DefaultOrder fm sharey Hnd)
    as (columns & rows & Hc & Hr & _ & H).
  assert (Hnc : NoDup columns) by (inversion Hc; assumption).
  assert (Hnr : NoDup rows) by (inversion Hr; assumption).
  assert (Hi : In input columns).
  { inversion Hc as [| |? _ E _]; subst. apply E. apply in_map_iff. now exists ((input, output), traces). }
  assert (Ho : In output rows).
  { inversion Hr as [| |? _ E _]; subst. apply E. apply in_map_iff. now exists ((input, output), traces). }
  destruct H as (cells & fm' & E & Hpos & Hcells).
  { intros ->. destruct Hi. } { intros ->. destruct Ho. }
  exists columns, rows, cells, fm'. split; [exact Hc|]. split; [exact Hr|]. split; [exact E|].
  apply In_nth_error in Hi as [c Hi]. apply In_nth_error in Ho as [r Ho].
  assert (Hrc : In (r, c) (map (fun s => (sp_row s, sp_column s)) cells)).
  { rewrite Hpos. apply in_prod; apply in_seq; split; try lia; cbn; apply nth_error_Some; congruence. }
  apply in_map_iff in Hrc as (s & Es & Hs). injection Es as Er Ec. exists s. split.
  - split; [exact Hs|]. destruct (Hcells s Hs) as (i & o & Hi' & Ho' & Htr & _). subst r c.
    rewrite Hi in Hi'. injection Hi' as <-. rewrite Ho in Ho'. injection Ho' as <-. auto.
  - intros s' (Hs' & _ & Hi' & Ho').
    apply (map_NoDup_inj (fun s => (sp_row s, sp_column s)) cells); auto.
    + rewrite Hpos. apply list_prod_NoDup; apply seq_NoDup.
    + cbn beta. rewrite NoDup_nth_error in Hnc, Hnr. f_equal.
      * rewrite Er. apply Hnr; [apply nth_error_Some; congruence|congruence].
      * rewrite Ec. apply Hnc; [apply nth_error_Some; congruence|congruence].
Qed.
Print Assumptions C84_every_plot_is_shown.

Definition three_plots : plots nat :=
  [(("b", "a"), [1; 2]); (("a", "a"), [3]); (("b", "c"), [4])].

Example C84_nonvacuous :
  NoDup (map fst three_plots) /\
  shown fst three_plots DefaultOrder ["b"; "a"] /\ shown snd three_plots DefaultOrder ["a"; "c"] /\
  exists fm',
  combine_transition_plots three_plots DefaultOrder DefaultOrder (Some [("b", "B")]) true
  = Ok ([mk_subplot 0 0 [1; 2] true "B" (Some "a"); mk_subplot 0 1 [3] false "a" None;
         mk_subplot 1 0 [4] false "B" (Some "c"); mk_subplot 1 1 [] false "a" None], fm').
Proof.
  assert (Hnd : NoDup (map fst three_plots)).
  { repeat constructor; cbn; intuition discriminate. }
  split; [exact Hnd|]. split; [apply (key_names_shown fst three_plots)|]. split; [apply (key_names_shown snd three_plots)|].
  unfold combine_transition_plots.
  change (process_order fst DefaultOrder three_plots) with ["b"; "a"].
  change (process_order snd DefaultOrder three_plots) with ["a"; "c"].
  destruct (default_grid true 2 2) as (g & Eg & Es); [lia|lia|].
  cbn [length]. rewrite Eg. cbn [rbind]. cbv zeta. rewrite Es. cbn [rbind]. eexists. vm_compute. reflexivity.
Qed.

(** * C85 *)

(** The dictionary of displayed names is extended in place. *)
Theorem C85_mapping_changed_refuted :
  exists (d : plots nat) fm sharey cells fm',
    NoDup (map fst d) /\
    combine_transition_plots d DefaultOrder DefaultOrder (Some fm) sharey = Ok (cells, Some fm') /\
    fm' <> fm.
Proof.
  destruct C84_nonvacuous as (Hnd & _ & _ & fm' & E).
  eexists three_plots, [("b", "B")], true, _, [("b", "B"); ("a", "a"); ("c", "c")]. split; [exact Hnd|]. split; [|discriminate].
  destruct (default_grid true 2 2) as (g & Eg & Es); [lia|lia|].
  unfold combine_transition_plots.
  change (process_order fst DefaultOrder three_plots) with ["b"; "a"].
  change (process_order snd DefaultOrder three_plots) with ["a"; "c"].
  cbn [length]. rewrite Eg. cbn [rbind]. cbv zeta. rewrite Es. cbn [rbind]. vm_compute. reflexivity.
Qed.
Print Assumptions C85_mapping_changed_refuted.

(** All that is added are the names of factors of the figure for themselves: no entry of
    the user is changed or removed, and nothing is added if there is an entry for all
    factors of the figure. *)
Theorem C85_mapping_kept_partial :
  forall T (d : plots T) column_order row_order fm sharey cells fm' columns rows,
    combine_transition_plots d column_order row_order (Some fm) sharey = Ok (cells, Some fm') ->
    shown fst d column_order columns -> shown snd d row_order rows ->
    (exists added, fm' = fm ++ added /\
       forall f name, In (f, name) added ->
         name = f /\ (In f columns \/ In f rows) /\ forall other, ~ In (f, other) fm) /\
    ((forall f, In f columns \/ In f rows -> exists name, In (f, name) fm) -> fm' = fm).
Proof.
  intros T d co ro fm sharey cells fm' columns rows E Hc Hr.
  assert (Ec : process_order fst co d = columns) by (apply (shown_unique fst d co); [apply process_order_shown|exact Hc]).
  assert (Er : process_order snd ro d = rows) by (apply (shown_unique snd d ro); [apply process_order_shown|exact Hr]).
  unfold combine_transition_plots in E. rewrite Ec, Er in E.
  destruct (get_grid _ _ _) as [g|] eqn:Eg; cbn [rbind] in E; [|discriminate].
  destruct (make_subplots _) as [u|] eqn:Es; cbn [rbind] in E; [|discriminate].
  destruct (mapM _ _) as [cs|] eqn:Em; cbn [rbind] in E; [|discriminate]. injection E as _ <-.
  unfold process_factor_mapping.
  assert (G : forall fs fm, exists added,
    fold_left (fun d f => if smem f (dkeys d) then d else d ++ [(f, f)]) fs fm = fm ++ added /\
    (forall f name, In (f, name) added -> name = f /\ In f fs /\ forall other, ~ In (f, other) fm)).
  { clear. induction fs as [|f fs IH]; intros fm; cbn [fold_left].
    { exists []. rewrite app_nil_r. split; [reflexivity|intros f name []]. }
    destruct (smem f (dkeys fm)) eqn:Ef.
    - destruct (IH fm) as (added & E & H). exists added. split; [exact E|]. intros g name Hg.
      destruct (H g name Hg) as (H1 & H2 & H3). split; [exact H1|]. split; [now right|exact H3].
    - destruct (IH (fm ++ [(f, f)])) as (added & E & H). exists ((f, f) :: added). split.
      + rewrite E, <- app_assoc. reflexivity.
      + intros g name [Hg|Hg].
        * injection Hg as <- <-. split; [reflexivity|]. split; [now left|]. intros other Hin.
          assert (In f (dkeys fm)) by (apply in_map_iff; now exists (f, other)). apply smem_In in H0. congruence.
        * destruct (H g name Hg) as (H1 & H2 & H3). split; [exact H1|]. split; [now right|]. intros other Hin.
          apply (H3 other). apply in_or_app. now left. }
  destruct (G (columns ++ rows) fm) as (added & -> & H). split.
  - exists added. split; [reflexivity|]. intros f name Hin. destruct (H f name Hin) as (H1 & H2 & H3).
    split; [exact H1|]. split; [now apply in_app_or in H2|exact H3].
  - intros Hall. destruct added as [|[f name] added]; [apply app_nil_r|]. exfalso.
    destruct (H f name) as (_ & H2 & H3); [now left|]. apply in_app_or in H2.
    destruct (Hall f H2) as [n Hn]. now apply (H3 n).
Qed.
Print Assumptions C85_mapping_kept_partial.

(** The layout: what the user asks for takes precedence over everything else, the rest is
    that of the package. *)
Theorem C85_layout :
  forall U (layout legend title : dict U) showlegend columns rows key,
    NoDup (map fst layout) -> NoDup (map fst legend) ->
    let result := get_plot_layout (Some layout) (Some legend) (Some title) showlegend (Some columns) (Some rows) in
    (forall x, In (key, x) layout -> dget result key = Some (LUser x)) /\
    ((forall x, ~ In (key, x) layout) ->
     dget result key =
       if key =? "template" then Some (LText "simple_white")
       else if (key =? "xaxis_showgrid") || (key =? "yaxis_showgrid") then Some (LBool false)
       else if key =? "legend" then Some (LDict legend)
       else if key =? "title" then Some (LDict title)
       else if key =? "showlegend" then Some (LBool showlegend)
       else if key =? "height" then Some (LNumber (300 * length rows))
       else if key =? "width" then Some (LNumber (300 * length columns))
       else None)%string.
Proof.
  intros U layout legend title showlegend columns rows key Hnd _ result.
  assert (Hnd' : NoDup (dkeys (map (fun kv => (fst kv, LUser (snd kv))) layout : dict (layout_value U)))).
  { unfold dkeys. rewrite map_map. exact Hnd. }
  unfold result, get_plot_layout. rewrite (dget_dupdate _ _ key Hnd').
  split.
  - intros x Hx. assert (Hg : dget (map (fun kv => (fst kv, LUser (snd kv))) layout : dict (layout_value U)) key = Some (LUser x)).
    { apply In_dget; [exact Hnd'|]. apply in_map_iff. now exists (key, x). }
    now rewrite Hg.
  - intros Hno. assert (Hg : dget (map (fun kv => (fst kv, LUser (snd kv))) layout : dict (layout_value U)) key = None).
    { apply dget_None. intros Hk. unfold dkeys in Hk. rewrite map_map in Hk. apply in_map_iff in Hk as ([k x] & <- & Hx).
      now apply (Hno x). }
    rewrite Hg.
    destruct title as [|kv title]; destruct legend as [|kv' legend]; rewrite ?dget_dset; cbn [dget];
      repeat match goal with |- context [String.eqb ?a ?b] => destruct (String.eqb_spec a b); subst; cbn [orb]; try congruence end; try reflexivity.
Qed.
Print Assumptions C85_layout.

Example C85_nonvacuous :
  dget (get_plot_layout (Some [("width", 7)]) (Some []) (Some [("text", 3)]) true (Some ["a"]) (Some ["a"; "b"])) "width"
  = Some (LUser 7) /\
  dget (get_plot_layout (Some [("width", 7)]) (Some []) (Some [("text", 3)]) true (Some ["a"]) (Some ["a"; "b"])) "title"
  = Some (LDict [("text", 3)]) /\
  dget (get_plot_layout (Some [("width", 7)]) (Some []) (Some [("text", 3)]) true (Some ["a"]) (Some ["a"; "b"])) "height"
  = Some (LNumber 600).
Proof. repeat split. Qed.
