(** Reductions of a model as changes of its parts. *)
Require Import String Arith ZArith QArith Bool List Lia Permutation.
From Verif Require Import PyBase ListFacts ModelSpec ProcessModel CheckModel SpecModel ProcessModelFacts AcceptFacts
  ParamsIndex SpecIndex IndexFacts Utilities SpecUtilities UtilitiesFacts SpecSteps.
Import ListNotations.
Open Scope string_scope.
Open Scope list_scope.
Open Scope nat_scope.

(** ** The parts of a model after a step *)

(** The largest number of periods of a factor. *)
Definition most_periods (fs : dict factor_spec) : nat :=
  fold_right Nat.max 0 (map (fun kv => length (fs_measurements (snd kv))) fs).

Definition less_anchoring (factors : names) (o : option anchoring_spec) : option anchoring_spec :=
  match o with
  | None => None
  | Some a =>
      match as_outcomes a with
      | None => Some a
      | Some outcomes =>
          match remove_from_dict outcomes factors with
          | [] => None
          | outcomes => Some (mk_anch (Some outcomes) (as_free_controls a) (as_free_constant a) (as_free_loadings a) (as_ignore_constant a))
          end
      end
  end.

Definition less_controls (controls : names) (o : option (list string)) : option (list string) :=
  match o with
  | None => None
  | Some cs => match remove_from_list cs controls with [] => None | l => Some l end
  end.

(** What a step does to each factor that stays, to the set of factors, and to the sections
    of the model. *)
Record change := mk_change {
  ch_factor : factor_spec -> factor_spec;
  ch_removed : names;
  ch_controls : option (list string) -> option (list string);
  ch_stagemap : option (list Z) -> option (list Z);
  ch_anchoring : option anchoring_spec -> option anchoring_spec }.

Definition new_factors (g : factor_spec -> factor_spec) (removed : names) (d : dict factor_spec) : dict factor_spec :=
  map (fun kv => (fst kv, g (snd kv))) (remove_from_dict d removed).

Definition do_change (c : change) (md : model_dict) : model_dict :=
  mk_md (new_factors (ch_factor c) (ch_removed c) (md_factors md)) (md_observed md) (ch_controls c (md_controls md))
    (ch_stagemap c (md_stagemap md)) (ch_anchoring c (md_anchoring md)) (md_options md).

Definition same {A} (x : A) : A := x.
Definition nothing : names := Many [].
Definition short_stages (k : nat) : option (list Z) -> option (list Z) := option_map (fun sm => shorten_if_necessary sm (Z.of_nat k - 1)).

Definition step_change (s : reduction_step) (md : model_dict) : change :=
  match s with
  | RemoveFactors a =>
      let n := most_periods (remove_from_dict (md_factors md) a) in
      mk_change (short_factor n) a same (short_stages n) (less_anchoring a)
  | RemoveMeasurements a => mk_change (reduced_factor a) nothing same same same
  | RemoveControls a => mk_change same nothing (less_controls a) same same
  | ReducePeriods k => mk_change (short_factor k) nothing same (short_stages k) same
  | TranslogToLinear => mk_change (switch_transition "translog" "linear") nothing same same same
  end.

Definition after_step (s : reduction_step) (md : model_dict) : model_dict := do_change (step_change s md) md.

Lemma remove_nothing {V} (d : dict V) : remove_from_dict d nothing = d.
Proof. induction d as [|kv d IH]; [reflexivity|]. unfold remove_from_dict in *. cbn in *. now rewrite IH. Qed.

Lemma model_eta md : mk_md (md_factors md) (md_observed md) (md_controls md) (md_stagemap md) (md_anchoring md) (md_options md) = md.
Proof. now destruct md. Qed.

Lemma most_In d f fs : In (f, fs) d -> length (fs_measurements fs) <= most_periods d.
Proof.
  unfold most_periods. induction d as [|kv d IH]; [intros []|]. cbn [map fold_right]. intros [->|H]; [cbn; lia|]. specialize (IH H). lia.
Qed.

Lemma most_attained d : d <> [] -> exists f fs, In (f, fs) d /\ length (fs_measurements fs) = most_periods d.
Proof.
  unfold most_periods. induction d as [|[f fs] d IH]; [intros H; now destruct H|]. intros _. cbn [map fold_right snd].
  destruct d as [|kv d]; [exists f, fs; split; [now left|cbn; lia]|]. destruct IH as (f' & fs' & Hin & E); [discriminate|].
  destruct (Nat.max_spec (length (fs_measurements fs)) (fold_right Nat.max 0 (map (fun kv0 => length (fs_measurements (snd kv0))) (kv :: d)))) as [[_ ->]|[_ ->]].
  - exists f', fs'. split; [now right|exact E].
  - exists f, fs. split; [now left|reflexivity].
Qed.

Lemma most_has_periods md n : has_n_periods md n -> n = most_periods (md_factors md).
Proof.
  intros [(f & fs & Hin & <-) Hle]. apply Nat.le_antisymm; [exact (most_In _ f fs Hin)|].
  destruct (most_attained (md_factors md)) as (g & gs & Hg & <-); [intros E; rewrite E in Hin; destruct Hin|]. now apply (Hle g).
Qed.

Lemma less_anchoring_spec a o o' : reduced_anchoring a o o' -> o' = less_anchoring a o.
Proof.
  unfold reduced_anchoring, less_anchoring. destruct o as [an|]; [|auto]. intros (outs & left & -> & Hk & H).
  assert (E : remove_from_dict outs a = left).
  { clear -Hk. induction Hk as [|x l l' Hx _ IH|x l l' Hx _ IH]; [reflexivity| |]; unfold remove_from_dict in *; cbn [filter].
    - rewrite (proj2 (not_named_smem a (fst x)) Hx). now rewrite IH.
    - destruct (negb (smem (fst x) (as_list a))) eqn:E; [|exact IH]. apply not_named_smem in E. contradiction. }
  rewrite E. destruct H as [[-> ->]|[Hne ->]]; [reflexivity|]. destruct left; [now destruct Hne|reflexivity].
Qed.

(** A call that succeeds returns the changed model. *)
Lemma with_params_model adjust params md md' out : with_params adjust params md = Ok (md', out) -> md' = md.
Proof.
  unfold with_params. destruct params as [ps|]; [|now intros [= <- _]]. destruct (adjust ps md) as [t|]; [|discriminate]. now intros [= <- _].
Qed.

Lemma keep_factors g md : map_factors g md = do_change (mk_change g nothing same same same) md.
Proof. unfold do_change, map_factors, new_factors, same. cbn [ch_factor ch_removed ch_controls ch_stagemap ch_anchoring]. now rewrite remove_nothing. Qed.

Lemma short_change md k : short_model md k = do_change (mk_change (short_factor k) nothing same (short_stages k) same) md.
Proof. unfold do_change, short_model, new_factors, same. cbn [ch_factor ch_removed ch_controls ch_stagemap ch_anchoring]. now rewrite remove_nothing. Qed.

Lemma step_result s md params md' out : do_step s md params = Ok (md', out) -> md' = after_step s md.
Proof.
  destruct s as [a|a|a|k|]; cbn [do_step].
  - intros H. apply remove_factors_unfold in H as (an & d & Ha & Hd & H). apply with_params_model in H. subst md'.
    apply less_anchoring_spec in Ha. subst an. apply get_dimensions_periods, most_has_periods in Hd. rewrite Hd. reflexivity.
  - intros H. apply with_params_model in H. subst md'. exact (keep_factors (reduced_factor a) md).
  - unfold remove_controls. destruct (md_controls md) as [cs|] eqn:Ec; [|discriminate]. intros H. apply with_params_model in H. subst md'.
    unfold after_step, do_change, new_factors, same, step_change. cbn [ch_factor ch_removed ch_controls ch_stagemap ch_anchoring].
    rewrite remove_nothing, Ec. cbn [less_controls]. f_equal. clear. induction (md_factors md) as [|[f fs] d IH]; [reflexivity|]. cbn. now f_equal.
  - rewrite reduce_n_periods_eq. intros H. apply with_params_model in H. subst md'. apply short_change.
  - intros H. apply with_params_model in H. subst md'. exact (keep_factors (switch_transition "translog" "linear") md).
Qed.

(** ** Changes commute *)

Lemma option_map_same {A B} (f g : A -> B) o : (forall x, f x = g x) -> option_map f o = option_map g o.
Proof. intros H. destruct o; [cbn; now rewrite H|reflexivity]. Qed.

Lemma norms_compose f1 g1 f2 g2 nm : map_norms f1 g1 (map_norms f2 g2 nm) = map_norms (fun x => f1 (f2 x)) (fun x => g1 (g2 x)) nm.
Proof. destruct nm as [[lo|] [ic|]]; reflexivity. Qed.

Lemma norms_same f g f' g' o : (forall l, f l = f' l) -> (forall l, g l = g' l) -> option_map (map_norms f g) o = option_map (map_norms f' g') o.
Proof. intros Hf Hg. destruct o as [[[lo|] [ic|]]|]; cbn; unfold map_norms; cbn; now rewrite ?Hf, ?Hg. Qed.

Lemma option_map_twice {A B C} (f : B -> C) (g : A -> B) o : option_map f (option_map g o) = option_map (fun x => f (g x)) o.
Proof. now destruct o. Qed.

Lemma short_short k l fs : short_factor k (short_factor l fs) = short_factor (Nat.min k l) fs.
Proof.
  unfold short_factor. cbn [fs_measurements fs_transition fs_norm]. rewrite firstn_firstn. f_equal. rewrite option_map_twice.
  transitivity (option_map (map_norms (fun x => firstn k (firstn l x)) (fun x => firstn k (firstn l x))) (fs_norm fs)).
  - apply option_map_same. intros nm. apply norms_compose.
  - apply norms_same; intros; apply firstn_firstn.
Qed.

Lemma short_reduced k a fs : short_factor k (reduced_factor a fs) = reduced_factor a (short_factor k fs).
Proof.
  unfold short_factor, reduced_factor. cbn [fs_measurements fs_transition fs_norm]. rewrite firstn_map. f_equal. rewrite !option_map_twice.
  transitivity (option_map (map_norms (fun x => firstn k (remove_from_normalizations a x)) (fun x => firstn k (remove_from_normalizations a x))) (fs_norm fs)).
  - apply option_map_same. intros nm. apply norms_compose.
  - transitivity (option_map (map_norms (fun x => remove_from_normalizations a (firstn k x)) (fun x => remove_from_normalizations a (firstn k x))) (fs_norm fs)).
    + apply norms_same; intros; apply firstn_map.
    + apply option_map_same. intros nm. symmetry. apply norms_compose.
Qed.

Lemma filter_twice {A} (f g : A -> bool) l : filter f (filter g l) = filter (fun x => g x && f x) l.
Proof. induction l as [|x l IH]; [reflexivity|]. cbn. destruct (g x); cbn; [destruct (f x); now rewrite IH|exact IH]. Qed.

Lemma filter_comm {A} (f g : A -> bool) l : filter f (filter g l) = filter g (filter f l).
Proof. rewrite !filter_twice. apply filter_ext. intros x. apply andb_comm. Qed.

Lemma remove_dict_comm {V} (d : dict V) a b : remove_from_dict (remove_from_dict d a) b = remove_from_dict (remove_from_dict d b) a.
Proof. apply filter_comm. Qed.

Lemma remove_list_comm l a b : remove_from_list (remove_from_list l a) b = remove_from_list (remove_from_list l b) a.
Proof. apply filter_comm. Qed.

Lemma smem_app x l l' : smem x (l ++ l') = smem x l || smem x l'.
Proof. unfold smem. apply existsb_app. Qed.

Lemma remove_dict_both {V} (d : dict V) a b : remove_from_dict (remove_from_dict d a) b = remove_from_dict d (both a b).
Proof. unfold remove_from_dict. rewrite filter_twice. apply filter_ext. intros x. cbn [both as_list]. now rewrite smem_app, negb_orb. Qed.

Lemma remove_list_both l a b : remove_from_list (remove_from_list l a) b = remove_from_list l (both a b).
Proof. unfold remove_from_list. rewrite filter_twice. apply filter_ext. intros x. cbn [both as_list]. now rewrite smem_app, negb_orb. Qed.

Lemma reduced_both a b fs : reduced_factor b (reduced_factor a fs) = reduced_factor (both a b) fs.
Proof.
  unfold reduced_factor. cbn [fs_measurements fs_transition fs_norm]. rewrite map_map. f_equal.
  - apply map_ext. intros l. apply remove_list_both.
  - rewrite option_map_twice.
    transitivity (option_map (map_norms (fun x => remove_from_normalizations b (remove_from_normalizations a x))
       (fun x => remove_from_normalizations b (remove_from_normalizations a x))) (fs_norm fs)).
    + apply option_map_same. intros nm. apply norms_compose.
    + assert (G : forall l, remove_from_normalizations b (remove_from_normalizations a l) = remove_from_normalizations (both a b) l).
      { intros l. unfold remove_from_normalizations. rewrite map_map. apply map_ext. intros d. apply remove_dict_both. }
      now apply norms_same.
Qed.

Lemma remove_list_ext l a b : (forall s, smem s (as_list a) = smem s (as_list b)) -> remove_from_list l a = remove_from_list l b.
Proof. intros H. apply filter_ext. intros x. now rewrite H. Qed.
Lemma remove_dict_ext {V} (d : dict V) a b : (forall s, smem s (as_list a) = smem s (as_list b)) -> remove_from_dict d a = remove_from_dict d b.
Proof. intros H. apply filter_ext. intros x. now rewrite H. Qed.

Lemma reduced_ext a b fs : (forall s, smem s (as_list a) = smem s (as_list b)) -> reduced_factor a fs = reduced_factor b fs.
Proof.
  intros H. unfold reduced_factor. f_equal; [apply map_ext; intros l; now apply remove_list_ext|].
  apply norms_same; intros l; apply map_ext; intros d; now apply remove_dict_ext.
Qed.

Lemma both_comm a b s : smem s (as_list (both a b)) = smem s (as_list (both b a)).
Proof. cbn [both as_list]. rewrite !smem_app. apply orb_comm. Qed.

Lemma reduced_reduced a b fs : reduced_factor b (reduced_factor a fs) = reduced_factor a (reduced_factor b fs).
Proof. rewrite !reduced_both. apply reduced_ext, both_comm. Qed.

Lemma short_switch k o n fs : short_factor k (switch_transition o n fs) = switch_transition o n (short_factor k fs).
Proof. reflexivity. Qed.
Lemma reduced_switch a o n fs : reduced_factor a (switch_transition o n fs) = switch_transition o n (reduced_factor a fs).
Proof. reflexivity. Qed.

Lemma short_stages_min k l o : 1 <= k -> 1 <= l -> short_stages k (short_stages l o) = short_stages (Nat.min k l) o.
Proof.
  intros Hk Hl. unfold short_stages. rewrite option_map_twice. apply option_map_same. intros sm.
  replace (Z.of_nat k - 1)%Z with (Z.of_nat (k - 1)) by lia. replace (Z.of_nat l - 1)%Z with (Z.of_nat (l - 1)) by lia.
  replace (Z.of_nat (Nat.min k l) - 1)%Z with (Z.of_nat (Nat.min (k - 1) (l - 1))) by lia.
  rewrite !shorten_nonneg. apply firstn_firstn.
Qed.

Lemma less_anchoring_both a b o : less_anchoring b (less_anchoring a o) = less_anchoring (both a b) o.
Proof.
  destruct o as [an|]; [|reflexivity]. unfold less_anchoring at 2 3. destruct (as_outcomes an) as [outs|] eqn:E.
  2:{ unfold less_anchoring. now rewrite E. }
  rewrite <- remove_dict_both. destruct (remove_from_dict outs a) as [|x l]; [reflexivity|]. reflexivity.
Qed.

Lemma less_anchoring_ext a b o : (forall s, smem s (as_list a) = smem s (as_list b)) -> less_anchoring a o = less_anchoring b o.
Proof.
  intros H. destruct o as [an|]; [|reflexivity]. unfold less_anchoring. destruct (as_outcomes an) as [outs|]; [|reflexivity].
  now rewrite (remove_dict_ext outs a b H).
Qed.

Lemma less_controls_both a b o : less_controls b (less_controls a o) = less_controls (both a b) o.
Proof.
  destruct o as [cs|]; [|reflexivity]. unfold less_controls at 2 3. rewrite <- remove_list_both.
  now destruct (remove_from_list cs a) as [|x l].
Qed.

Lemma less_controls_ext a b o : (forall s, smem s (as_list a) = smem s (as_list b)) -> less_controls a o = less_controls b o.
Proof. intros H. destruct o as [cs|]; [|reflexivity]. unfold less_controls. now rewrite (remove_list_ext cs a b H). Qed.

Lemma remove_mapped {V} (g : V -> V) (d : dict V) a :
  remove_from_dict (map (fun kv => (fst kv, g (snd kv))) d) a = map (fun kv => (fst kv, g (snd kv))) (remove_from_dict d a).
Proof.
  unfold remove_from_dict. induction d as [|kv d IH]; [reflexivity|]. cbn [map filter fst].
  destruct (negb (smem (fst kv) (as_list a))); cbn [map fst snd]; now rewrite IH.
Qed.

Lemma new_factors_twice g a h b d : new_factors g a (new_factors h b d) = new_factors (fun fs => g (h fs)) (both b a) d.
Proof. unfold new_factors. rewrite remove_mapped, map_map, remove_dict_both. apply map_ext. intros [f fs]. reflexivity. Qed.

Lemma new_factors_ext g a h b d : (forall fs, g fs = h fs) -> (forall s, smem s (as_list a) = smem s (as_list b)) -> new_factors g a d = new_factors h b d.
Proof. intros Hg Ha. unfold new_factors. rewrite (remove_dict_ext d a b Ha). apply map_ext. intros [f fs]. cbn. now rewrite Hg. Qed.

Lemma most_same_length g d : (forall fs, length (fs_measurements (g fs)) = length (fs_measurements fs)) ->
  most_periods (map (fun kv => (fst kv, g (snd kv))) d) = most_periods d.
Proof. intros H. unfold most_periods. rewrite map_map. f_equal. apply map_ext. intros kv. cbn. apply H. Qed.

Lemma most_short k d : most_periods (map (fun kv => (fst kv, short_factor k (snd kv))) d) = Nat.min k (most_periods d).
Proof.
  induction d as [|[f fs] d IH]; [cbn; lia|]. unfold most_periods in *. cbn [map fold_right fst snd]. rewrite IH.
  unfold short_factor at 1. cbn [fs_measurements]. rewrite firstn_length. lia.
Qed.

Lemma most_removed d a : most_periods (remove_from_dict d a) <= most_periods d.
Proof.
  unfold most_periods, remove_from_dict. induction d as [|kv d IH]; [cbn; lia|]. cbn [filter]. destruct (negb _); cbn [map fold_right]; lia.
Qed.

Lemma model_ext a a' b c c' d d' e e' f : a = a' -> c = c' -> d = d' -> e = e' -> mk_md a b c d e f = mk_md a' b c' d' e' f.
Proof. now intros -> -> -> ->. Qed.

Lemma changes_commute c1 c1' c2 c2' md :
  (forall fs, ch_factor c1' (ch_factor c2 fs) = ch_factor c2' (ch_factor c1 fs)) ->
  ch_removed c1' = ch_removed c1 -> ch_removed c2' = ch_removed c2 ->
  ch_controls c1' (ch_controls c2 (md_controls md)) = ch_controls c2' (ch_controls c1 (md_controls md)) ->
  ch_stagemap c1' (ch_stagemap c2 (md_stagemap md)) = ch_stagemap c2' (ch_stagemap c1 (md_stagemap md)) ->
  ch_anchoring c1' (ch_anchoring c2 (md_anchoring md)) = ch_anchoring c2' (ch_anchoring c1 (md_anchoring md)) ->
  do_change c1' (do_change c2 md) = do_change c2' (do_change c1 md).
Proof.
  intros Hf R1 R2 Hc Hs Ha. unfold do_change. cbn [md_factors md_observed md_controls md_stagemap md_anchoring md_options].
  apply model_ext; [|exact Hc|exact Hs|exact Ha]. rewrite !new_factors_twice, R1, R2. apply new_factors_ext; [exact Hf|apply both_comm].
Qed.

Definition gone (s : reduction_step) : names := match s with RemoveFactors a => a | _ => nothing end.
Definition positive_step (s : reduction_step) : Prop := match s with ReducePeriods k => 1 <= k | _ => True end.

Lemma min_stages k l o : 1 <= k -> 1 <= l -> short_stages k (short_stages l o) = short_stages l (short_stages k o).
Proof. intros Hk Hl. rewrite !short_stages_min, Nat.min_comm by assumption. reflexivity. Qed.

Ltac parts := cbn [step_change ch_factor ch_removed ch_controls ch_stagemap ch_anchoring]; unfold same.

(** The number of periods after factors were removed, before and after another step. *)
Lemma periods_after a s md : positive_step s ->
  most_periods (remove_from_dict (md_factors (after_step s md)) a) =
  match s with
  | RemoveFactors b => most_periods (remove_from_dict (remove_from_dict (md_factors md) b) a)
  | ReducePeriods k => Nat.min k (most_periods (remove_from_dict (md_factors md) a))
  | _ => most_periods (remove_from_dict (md_factors md) a)
  end.
Proof.
  intros Hs. unfold after_step, do_change, new_factors. cbn [md_factors]. rewrite remove_mapped.
  destruct s as [b|b|b|k|]; parts; rewrite ?remove_nothing.
  - rewrite most_short. pose proof (most_removed (remove_from_dict (md_factors md) b) a). lia.
  - apply most_same_length. intros fs. apply reduced_factor_length.
  - now apply (most_same_length (fun fs => fs)).
  - apply most_short.
  - now apply most_same_length.
Qed.

Lemma remove_then d a b : most_periods (remove_from_dict (remove_from_dict d b) a) = most_periods (remove_from_dict (remove_from_dict d a) b).
Proof. now rewrite remove_dict_comm. Qed.

Lemma factors_commute a b md : 1 <= most_periods (remove_from_dict (remove_from_dict (md_factors md) a) b) ->
  after_step (RemoveFactors a) (after_step (RemoveFactors b) md) = after_step (RemoveFactors b) (after_step (RemoveFactors a) md).
Proof.
  intros H. unfold after_step at 1 3. set (m := most_periods (remove_from_dict (remove_from_dict (md_factors md) a) b)) in *.
  pose proof (most_removed (remove_from_dict (md_factors md) a) b) as La. fold m in La.
  pose proof (most_removed (remove_from_dict (md_factors md) b) a) as Lb. rewrite remove_then in Lb. fold m in Lb.
  pose proof (periods_after a (RemoveFactors b) md I) as Ea. cbv iota in Ea. rewrite (remove_then (md_factors md) a b) in Ea. fold m in Ea.
  pose proof (periods_after b (RemoveFactors a) md I) as Eb. cbv iota in Eb. fold m in Eb.
  apply changes_commute; parts; rewrite ?Ea, ?Eb; try reflexivity.
  - intros fs. rewrite !short_short. f_equal. lia.
  - rewrite !short_stages_min by lia. f_equal. lia.
  - rewrite !less_anchoring_both. apply less_anchoring_ext, both_comm.
Qed.

Lemma factors_and_step a s md : positive_step s -> (forall b, s <> RemoveFactors b) -> 1 <= most_periods (remove_from_dict (md_factors md) a) ->
  after_step (RemoveFactors a) (after_step s md) = after_step s (after_step (RemoveFactors a) md).
Proof.
  intros Hs Hg H. unfold after_step at 1 3. set (m := most_periods (remove_from_dict (md_factors md) a)) in *.
  pose proof (periods_after a s md Hs) as E. fold m in E.
  destruct s as [b|b|b|k|].
  - now destruct (Hg b).
  - apply changes_commute; parts; rewrite ?E; fold m; try reflexivity. intros fs. apply short_reduced.
  - apply changes_commute; parts; rewrite ?E; fold m; reflexivity.
  - apply changes_commute; parts; rewrite ?E; fold m; try reflexivity.
    + intros fs. rewrite !short_short. f_equal. lia.
    + cbn in Hs. rewrite !short_stages_min by lia. f_equal. lia.
  - apply changes_commute; parts; rewrite ?E; fold m; reflexivity.
Qed.

Lemma other_steps s s' md : positive_step s -> positive_step s' ->
  (forall a, s <> RemoveFactors a) -> (forall a, s' <> RemoveFactors a) ->
  after_step s (after_step s' md) = after_step s' (after_step s md).
Proof.
  intros Hs Hs' N N'. unfold after_step at 1 3.
  destruct s as [a|a|a|k|]; [now destruct (N a)| | | |]; (destruct s' as [b|b|b|l|]; [now destruct (N' b)| | | |]);
    apply changes_commute; parts; try reflexivity.
  - intros fs. apply reduced_reduced.
  - intros fs. symmetry. apply short_reduced.
  - rewrite !less_controls_both. apply less_controls_ext, both_comm.
  - intros fs. apply short_reduced.
  - intros fs. rewrite !short_short. f_equal. lia.
  - now apply min_stages.
Qed.

(** ** Sequences of steps *)

Definition after_steps (steps : list reduction_step) (md : model_dict) : model_dict := fold_left (fun m s => after_step s m) steps md.

(** Some factor with measurements is never removed. *)
Definition alive (steps : list reduction_step) (md : model_dict) : Prop :=
  exists f fs, In (f, fs) (md_factors md) /\ fs_measurements fs <> [] /\ forall a, In (RemoveFactors a) steps -> ~ named a f.

Lemma nonempty_length {A} (l : list A) : l <> [] <-> 1 <= length l.
Proof. destruct l; cbn; split; [now intros []|lia|lia|discriminate]. Qed.

Lemma after_step_In s md f fs : In (f, fs) (md_factors md) -> ~ named (gone s) f ->
  In (f, ch_factor (step_change s md) fs) (md_factors (after_step s md)).
Proof.
  intros Hin Hg. unfold after_step, do_change, new_factors. cbn [md_factors]. apply in_map_iff. exists (f, fs). split; [reflexivity|].
  apply remove_from_dict_In. split; [exact Hin|]. destruct s; cbn [step_change ch_removed]; try exact Hg; now intros [].
Qed.

Lemma not_gone steps s f : (forall a, In (RemoveFactors a) (s :: steps) -> ~ named a f) -> ~ named (gone s) f.
Proof. intros H. destruct s; cbn [gone]; try (now intros []). apply H. now left. Qed.

Lemma alive_step s steps md : positive_step s -> alive (s :: steps) md -> alive steps (after_step s md).
Proof.
  intros Hs (f & fs & Hin & Hm & Hn). exists f, (ch_factor (step_change s md) fs). pose proof (not_gone steps s f Hn) as Hg.
  split; [now apply after_step_In|]. split; [|intros a Ha; apply Hn; now right].
  apply nonempty_length. apply nonempty_length in Hm. destruct s as [a|a|a|k|]; parts.
  - assert (L : length (fs_measurements fs) <= most_periods (remove_from_dict (md_factors md) a)).
    { apply (most_In _ f). apply remove_from_dict_In. now split. }
    cbn [short_factor fs_measurements]. rewrite firstn_length. lia.
  - now rewrite reduced_factor_length.
  - exact Hm.
  - cbn [short_factor fs_measurements]. rewrite firstn_length. cbn in Hs. lia.
  - now rewrite switch_length.
Qed.

Lemma alive_perm steps steps' md : Permutation steps steps' -> alive steps md -> alive steps' md.
Proof.
  intros Hp (f & fs & Hin & Hm & Hn). exists f, fs. split; [exact Hin|]. split; [exact Hm|]. intros a Ha. apply Hn.
  now apply (Permutation_in _ (Permutation_sym Hp)).
Qed.

Lemma steps_commute s s' steps md : positive_step s -> positive_step s' -> alive (s :: s' :: steps) md ->
  after_step s (after_step s' md) = after_step s' (after_step s md).
Proof.
  intros Hs Hs' (f & fs & Hin & Hm & Hn). apply nonempty_length in Hm.
  assert (L : forall a, In (RemoveFactors a) (s :: s' :: steps) -> 1 <= most_periods (remove_from_dict (md_factors md) a)).
  { intros a Ha. transitivity (length (fs_measurements fs)); [exact Hm|]. apply (most_In _ f). apply remove_from_dict_In. split; [exact Hin|now apply Hn]. }
  assert (D : forall x, (exists a, x = RemoveFactors a) \/ forall a, x <> RemoveFactors a).
  { intros [a| | | |]; [left; now exists a|..]; right; discriminate. }
  destruct (D s) as [[a ->]|N], (D s') as [[b ->]|N'].
  - apply factors_commute. transitivity (length (fs_measurements fs)); [exact Hm|]. apply (most_In _ f).
    apply remove_from_dict_In. split; [apply remove_from_dict_In; split; [exact Hin|]|]; apply Hn; cbn; tauto.
  - apply factors_and_step; [exact Hs'|exact N'|]. apply L. now left.
  - symmetry. apply factors_and_step; [exact Hs|exact N|]. apply L. right. now left.
  - now apply other_steps.
Qed.

Lemma order_of_steps steps steps' : Permutation steps steps' -> forall md,
  Forall positive_step steps -> alive steps md -> after_steps steps md = after_steps steps' md.
Proof.
  unfold after_steps. induction 1 as [|s l l' _ IH|s s' l|l1 l2 l3 H12 IH1 H23 IH2]; intros md Hp Ha.
  - reflexivity.
  - cbn [fold_left]. inversion Hp; subst. apply IH; [assumption|]. now apply alive_step.
  - cbn [fold_left]. f_equal. inversion Hp as [|? ? P1 P2]; subst. inversion P2; subst.
    apply (steps_commute s s' l); [assumption|assumption|]. apply (alive_perm (s' :: s :: l)); [apply perm_swap|exact Ha].
  - rewrite IH1 by assumption. apply IH2; [|now apply (alive_perm l1)].
    rewrite Forall_forall in *. intros x Hx. apply Hp. now apply (Permutation_in _ (Permutation_sym H12)).
Qed.

Lemma positive_all steps : positive_periods steps -> Forall positive_step steps.
Proof. intros H. apply Forall_forall. intros [a|a|a|k|] Hin; cbn; try exact I. now apply H. Qed.

(** A sequence of calls that succeeds returns the changed model; if the result is accepted,
    some factor survived. *)
Lemma steps_result steps : forall md params md' out, do_steps steps md params = Ok (md', out) -> md' = after_steps steps md.
Proof.
  unfold after_steps. induction steps as [|s steps IH]; intros md params md' out H; cbn [do_steps fold_left] in *; [now injection H|].
  apply rbind_ok in H as ([m1 o1] & H1 & H). cbn [fst snd] in H. apply step_result in H1. subst m1. exact (IH _ _ _ _ H).
Qed.

Lemma after_step_inv s md f fs' : In (f, fs') (md_factors (after_step s md)) ->
  exists fs, In (f, fs) (md_factors md) /\ ~ named (gone s) f /\ fs' = ch_factor (step_change s md) fs.
Proof.
  unfold after_step, do_change, new_factors. cbn [md_factors]. intros H. apply in_map_iff in H as ([g gs] & [= <- <-] & H).
  apply remove_from_dict_In in H as [H Hn]. exists gs. split; [exact H|]. split; [|reflexivity].
  destruct s; cbn [step_change ch_removed gone] in *; try exact Hn; now intros [].
Qed.

Lemma change_shrinks s md fs : length (fs_measurements (ch_factor (step_change s md) fs)) <= length (fs_measurements fs).
Proof.
  destruct s as [a|a|a|k|]; parts; cbn [short_factor fs_measurements]; rewrite ?firstn_length, ?reduced_factor_length, ?switch_length; lia.
Qed.

Lemma survivor steps : forall md f fs', In (f, fs') (md_factors (after_steps steps md)) ->
  exists fs, In (f, fs) (md_factors md) /\ length (fs_measurements fs') <= length (fs_measurements fs) /\
    forall a, In (RemoveFactors a) steps -> ~ named a f.
Proof.
  unfold after_steps. induction steps as [|s steps IH]; intros md f fs' H; cbn [fold_left] in H.
  - exists fs'. split; [exact H|]. split; [lia|intros a []].
  - apply IH in H as (fs1 & H & L & N). apply after_step_inv in H as (fs & H & Ng & ->). exists fs. split; [exact H|]. split.
    + pose proof (change_shrinks s md fs). lia.
    + intros a [->|Ha]; [exact Ng|now apply N].
Qed.

Lemma accepted_alive steps md p : process_model (after_steps steps md) = Ok p -> alive steps md.
Proof.
  intros Hp. destruct (p_dims_eq _ p Hp) as (_ & _ & _ & _ & [(f & fs' & Hin & Hl) _] & H1).
  apply survivor in Hin as (fs & Hin & L & N). exists f, fs. split; [exact Hin|]. split; [|exact N]. apply nonempty_length. lia.
Qed.

(** ** What steps preserve *)

Lemma after_latent s md : latent_of (after_step s md) = map fst (remove_from_dict (md_factors md) (ch_removed (step_change s md))).
Proof. unfold latent_of, after_step, do_change, new_factors. cbn [md_factors]. rewrite map_map. reflexivity. Qed.

Lemma latent_sublist s md : sublist (latent_of (after_step s md)) (latent_of md).
Proof.
  rewrite after_latent. unfold latent_of. apply sublist_map. exact (kept_sublist _ _ _ (remove_from_dict_kept (md_factors md) _)).
Qed.

Lemma wf_after s md : wf_dicts md -> wf_dicts (after_step s md).
Proof.
  intros [H1 H2]. split.
  - change (NoDup (latent_of (after_step s md))). exact (sublist_NoDup _ _ (latent_sublist s md) H1).
  - intros an o. destruct s as [a|a|a|k|]; unfold after_step, do_change; cbn [md_anchoring]; parts; try apply H2.
    unfold less_anchoring. destruct (md_anchoring md) as [a0|]; [|discriminate]. destruct (as_outcomes a0) as [outs|] eqn:E.
    + destruct (remove_from_dict outs a) as [|x l] eqn:Er; [discriminate|]. intros [= <-]. cbn [as_outcomes]. intros [= <-].
      rewrite <- Er. apply remove_from_dict_NoDup. now apply (H2 a0).
    + intros [= <-]. congruence.
Qed.

Lemma controls_sublist s md : sublist (controls_of (after_step s md)) (controls_of md).
Proof.
  destruct s as [a|a|a|k|]; try apply sublist_refl. unfold controls_of, after_step, do_change. cbn [md_controls]. parts.
  unfold less_controls. destruct (md_controls md) as [cs|]; [|apply sublist_refl].
  pose proof (kept_sublist _ _ _ (remove_from_list_kept cs a)) as H. destruct (remove_from_list cs a) as [|x l]; exact H.
Qed.

Lemma names_after s md : good_names md -> good_names (after_step s md).
Proof.
  intros (H1 & H2 & H3 & H4 & H5 & H6). pose proof (latent_sublist s md) as L.
  assert (L' : sublist (latent_of (after_step s md) ++ observed_of (after_step s md)) (latent_of md ++ observed_of md)).
  { change (observed_of (after_step s md)) with (observed_of md). now apply sublist_app. }
  split; [exact (sublist_NoDup _ _ L' H1)|]. split; [intros f Hf; apply H2; exact (sublist_In _ _ f L Hf)|].
  split; [intros f Hf; apply H3; exact (sublist_In _ _ f L' Hf)|].
  split; [exact (sublist_NoDup _ _ (controls_sublist s md) H4)|].
  split; [intros Hc; apply H5; exact (sublist_In _ _ _ (controls_sublist s md) Hc)|].
  intros f fs' n nms Hin Ht. apply after_step_inv in Hin as (fs & Hin & _ & ->). apply (H6 f fs n nms Hin). revert Ht.
  destruct s as [a|a|a|k|]; parts; try (intros Ht; exact Ht).
  unfold switch_transition. cbn [fs_transition]. destruct (fs_transition fs); try (intros Ht; exact Ht). now destruct (String.eqb _ _).
Qed.
