(** Normalizations of the scale and the location of the factors are without loss of
    generality if the production functions are linear, linear with squares, translog or
    general CES functions (C111). *)
Require Import Reals Qreals Lra Lia Arith ZArith Bool String List.
From Verif Require Import PyBase ListFacts StringFacts DataArrays ModelSpec ProcessModel CheckModel SpecModel ProcessModelFacts
  SpecParse SpecIndex IndexFacts ParamsIndex ParseParams ExampleModels ParseFacts PropsSpec PropsParse ProcessData SpecData DataFacts PropsData
  RSum Kalman SpecKalman KalmanFacts PredictFacts QRWitness Clipping Likelihood SpecLikelihood ScheduleFacts LikelihoodFacts
  LikelihoodRun PropsKalman LikelihoodLocal PropsLikelihood PropsFiltered TransitionFunctions SpecTransition TransitionFacts PropsTransition
  SpecStateSpace SpecModelDensity ModelDensityFacts QRSigns PropsNumerics Renormalization PropsRenormalization PropsControls ParamsVec SpecNormalization NormalizationFacts.
Import ListNotations.
Open Scope R_scope.

Section Adapted.
  Variables (nan neg_inf : R) (custom : string -> dict R -> dict R -> list R -> result R).
  Hypothesis Hcustom : total_custom custom.
  Variables (md : model_dict) (p : processed) (n : nat) (df : frame R) (ids lv : list Z) (ar : arrays R)
            (params params' : list R) (ps ps' : parsed R) (val val' : label -> R) (scale shift : nat -> string -> R).
  Hypothesis H : likelihood_setting md p n df ids lv ar params ps.
  Hypothesis H' : likelihood_setting md p n df ids lv ar params' ps'.
  Hypothesis Hval : parameter_values (params_index_of p) params val.
  Hypothesis Hval' : parameter_values (params_index_of p) params' val'.
  Hypothesis Hout : outcomes_of md = [].
  Hypothesis Hsc : forall t f, (t < n)%nat -> In f (latent_of md) -> scale t f <> 0.
  Hypothesis Had : adapted_productions md n scale shift val val'.

  Let Hwf : wf_dicts md. Proof. apply H. Qed.
  Let Hp : process_model md = Ok p. Proof. apply H. Qed.
  Let Hn : has_n_periods md n. Proof. apply H. Qed.
  Let Hg : good_names md. Proof. apply H. Qed.
  Let tfunc := model_tfunc nan neg_inf custom md (p_labels p).
  Let nl := length (latent_of md).
  Let all := latent_of md ++ observed_of md.

  Lemma clean_no_anchors : clean_anchoring md.
  Proof. split; [|split]; rewrite Hout; [intros f o []|constructor|intros ? ? ? ? []]. Qed.

  Lemma order_no_anchors : anchored_in_order md.
  Proof. unfold anchored_in_order. rewrite Hout. cbn [map existsb]. symmetry. apply filter_false. Qed.

  Lemma unanchored f o : ~ anchored md f o.
  Proof. intros Ho. apply anchored_outcomes in Ho. rewrite Hout in Ho. destruct Ho. Qed.

  (** Without anchoring, the transition function is applied to the factors. *)
  Lemma anchors_unit q w r t j : likelihood_setting md p n df ids lv ar q r -> parameter_values (params_index_of p) q w ->
    (t < n)%nat -> (j < length all)%nat -> in_scaling (inputs_of r ar) t j = 1 /\ in_constants (inputs_of r ar) t j = 0.
  Proof.
    intros Hq Hw Ht Hj. destruct (nth_error all j) as [f|] eqn:Ef; [|apply nth_error_None in Ef; lia].
    destruct (anchor_inputs md p n df ids lv ar q r w Hq Hw clean_no_anchors order_no_anchors t j f Ht Ef) as (_ & _ & A3 & A4).
    split; [apply A3|apply A4; left]; intros o; apply unanchored.
  Qed.

  (** The next value of a factor by its documented formula. *)
  Lemma next_documented q w r t j fs row state y s : likelihood_setting md p n df ids lv ar q r -> parameter_values (params_index_of p) q w ->
    (t + 1 < n)%nat -> (j < nl)%nat -> In (factor md j, fs) (md_factors md) -> fs_transition fs = TStr s ->
    (forall k g, nth_error all k = Some g -> state g = row k) ->
    documented all (fun name => w (CTransition, t, factor md j, name)) state (factor md j) s y ->
    tfunc (in_coeffs (inputs_of r ar) t) row j = y.
  Proof.
    intros Hq Hw Ht Hj Hin Hs Hst Hd. pose proof (factor_nth md j Hj) as Hf.
    destruct (C57_model_transition nan neg_inf custom Hcustom md p n (length ids) q r ar Hwf Hg Hp Hn ltac:(apply Hq) ltac:(apply Hq)
      t j (factor md j) fs row (fun name => w (CTransition, t, factor md j, name)) state Ht Hf Hin) as [A _].
    - intros name Hname. apply (proj1 Hw). apply (In_params_index md p _ Hwf Hp). now apply (par_transition md t n _ fs).
    - exact Hst.
    - exact (A s y Hs Hd).
  Qed.

  Lemma adapted_absorbed i t : (t + 1 < n)%nat -> transition_absorbed nan neg_inf custom md p ar ps ps' scale shift i t.
  Proof.
    intros Ht v j Hj. fold nl in Hj |- *. fold tfunc. set (obs := fun o => to_number nan (in_observed (inputs_of ps ar) t i o)).
    assert (Hja : (j < length all)%nat) by (unfold all; rewrite app_length; unfold nl in Hj; lia).
    unfold anchored_transition. unfold moved at 2. cbv beta.
    destruct (anchors_unit params val ps (t + 1) j H Hval Ht Hja) as [-> ->].
    destruct (anchors_unit params' val' ps' (t + 1) j H' Hval' Ht Hja) as [-> ->].
    set (X := all_factors nl v obs). set (X' := all_factors nl (moved _ _ v) obs).
    assert (Hin : In (factor md j) (latent_of md)) by (eapply nth_error_In, factor_nth, Hj).
    unfold latent_of in Hin. apply in_map_iff in Hin as ([f fs] & Ef & Hin). cbn [fst] in Ef. subst f.
    assert (Nd : NoDup all) by apply Hg.
    set (state := fun g => match position g all with Some k => X k | None => 0 end).
    set (state' := fun g => match position g all with Some k => X' k | None => 0 end).
    assert (S1 : forall k g, nth_error all k = Some g -> state g = X k).
    { intros k g Hk. unfold state. now rewrite (position_nth _ _ k Nd Hk). }
    assert (S2 : forall k g, nth_error all k = Some g -> state' g = X' k).
    { intros k g Hk. unfold state'. now rewrite (position_nth _ _ k Nd Hk). }
    assert (R1 : forall k g, nth_error all k = Some g -> state g = X k * in_scaling (inputs_of ps ar) (t + 0)%nat k + in_constants (inputs_of ps ar) (t + 0)%nat k).
    { intros k g Hk. assert (Lk : (k < length all)%nat) by (apply nth_error_Some; congruence).
      destruct (anchors_unit params val ps (t + 0) k H Hval ltac:(lia) Lk) as [-> ->]. rewrite (S1 k g Hk). ring. }
    assert (R2 : forall k g, nth_error all k = Some g -> state' g = X' k * in_scaling (inputs_of ps' ar) (t + 0)%nat k + in_constants (inputs_of ps' ar) (t + 0)%nat k).
    { intros k g Hk. assert (Lk : (k < length all)%nat) by (apply nth_error_Some; congruence).
      destruct (anchors_unit params' val' ps' (t + 0) k H' Hval' ltac:(lia) Lk) as [-> ->]. rewrite (S2 k g Hk). ring. }
    replace (t + 1)%nat with (S t) in * by lia.
    destruct (Had t (factor md j) fs ltac:(lia) Hin) as [(Es & C1 & D1)|(s & Es & Ha)]; replace (t + 1)%nat with (S t) in * by lia.
    - rewrite (next_documented params' val' ps' t j fs _ state' (state' (factor md j)) "constant" H' Hval' ltac:(lia) Hj Hin Es R2 (doc_constant _ _ _ _)).
      rewrite (next_documented params val ps t j fs _ state (state (factor md j)) "constant" H Hval ltac:(lia) Hj Hin Es R1 (doc_constant _ _ _ _)).
      assert (Hk : nth_error all j = Some (factor md j)) by (unfold all; rewrite nth_error_app1; [apply factor_nth|]; exact Hj).
      rewrite (S1 _ _ Hk), (S2 _ _ Hk), C1, D1. unfold X, X', all_factors, moved.
      destruct (Nat.ltb_spec j nl); [field|lia].
    - assert (Hst : forall g, In g all -> state g = (if existsb (String.eqb g) (latent_of md) then / scale t g else 1) * state' g
                       - (if existsb (String.eqb g) (latent_of md) then shift t g / scale t g else 0)).
      2:{ assert (Sj : scale (S t) (factor md j) <> 0) by (apply Hsc; [lia|eapply nth_error_In, factor_nth, Hj]).
          destruct (adapted_documented _ _ _ _ _ s _ _ (factor md j) state state' Nd Sj Ha Hst) as (y & y' & Dy & Dy' & Ey).
          rewrite (next_documented params' val' ps' t j fs _ state' y' s H' Hval' ltac:(lia) Hj Hin Es R2 Dy').
          rewrite (next_documented params val ps t j fs _ state y s H Hval ltac:(lia) Hj Hin Es R1 Dy). rewrite Ey. field. }
      intros g Hgi. apply In_nth_error in Hgi as [k Hk]. rewrite (S1 k g Hk), (S2 k g Hk). unfold X, X', all_factors, moved.
      unfold all in Hk. destruct (Nat.ltb_spec k nl) as [L|G].
      + rewrite nth_error_app1, (factor_nth md k L) in Hk by exact L. injection Hk as <-.
        assert (Hfl : In (factor md k) (latent_of md)) by (eapply nth_error_In, factor_nth, L).
        replace (existsb _ _) with true; [|symmetry; now apply smem_In].
        field. apply Hsc; [lia|exact Hfl].
      + replace (existsb (String.eqb g) (latent_of md)) with false; [ring|]. symmetry. apply smem_false.
        intros F. apply In_nth_error in F as [a Ha'].
        assert (La : (a < nl)%nat) by (apply nth_error_Some; unfold nl; congruence).
        assert (E : nth_error all a = nth_error all k).
        { unfold all. rewrite nth_error_app1 by exact La. unfold nl in *. congruence. }
        apply (proj1 (NoDup_nth_error all) Nd) in E; [lia|]. unfold all. rewrite app_length. unfold nl in La. lia.
  Qed.
End Adapted.

(** The factors have no natural scale and location. For linear, linear with squares, translog and
    general CES production functions, and for CES functions of factors on the same scale, another scale and location
    of the latent factors is absorbed by the coefficients of the production functions and
    the parameters of the measurement system and of the initial distribution: the likelihood
    and the contributions are the same, and the filtered factors are those of the first parameter
    vector on the new scale. *)
Theorem C111_scale_and_location_absorbed :
  forall qr nan neg_inf custom md p n df ids lv ar params params' ps ps' val val' scale shift debug,
    correct_qr qr -> total_custom custom ->
    likelihood_setting md p n df ids lv ar params ps -> parameter_values (params_index_of p) params val ->
    likelihood_setting md p n df ids lv ar params' ps' -> parameter_values (params_index_of p) params' val' ->
    outcomes_of md = [] -> every_period_measured md n ->
    nondegenerate md n (params_index_of p) val (arr2 (ps_scaling ps)) ->
    0 <= Q2R (o_sigma_points_scale (p_options p)) ->
    (forall t f, (t < n)%nat -> In f (latent_of md) -> scale t f <> 0) ->
    renormalized_factor_units md n scale shift val val' -> adapted_productions md n scale shift val val' ->
    let tfunc := model_tfunc nan neg_inf custom md (p_labels p) in
    match log_likelihood qr nan tfunc p ar debug params, log_likelihood qr nan tfunc p ar debug params' with
    | Ok out, Ok out' => rescaled_output md n (length ids) scale shift out out'
    | Err e, Err e' => e = e'
    | _, _ => False
    end.
Proof.
  intros qr nan neg_inf custom md p n df ids lv ar params params' ps ps' val val' scale shift debug
    Hqr Hcustom H Hval H' Hval' Hout Hev Hnd Hkappa Hsc Hren Had tfunc.
  exact (likelihood_renormalized qr nan neg_inf custom md p n df ids lv ar params params' ps ps' val val' scale shift debug
    Hqr Hcustom H Hval H' Hval' Hev Hnd Hkappa Hren Hsc
    (fun i t _ Ht => adapted_absorbed nan neg_inf custom Hcustom md p n df ids lv ar params params' ps ps' val val' scale shift
       H H' Hval Hval' Hout Hsc Had i t Ht)).
Qed.
Print Assumptions C111_scale_and_location_absorbed.

(** ** Parameters on another scale *)

Lemma find_name {A} (name : A -> string) (l : list A) x : In x l ->
  (forall y, In y l -> name y = name x -> y = x) -> find (fun y => String.eqb (name y) (name x)) l = Some x.
Proof.
  induction l as [|a l IH]; intros Hin Hinj; [destruct Hin|]. cbn [find].
  destruct (String.eqb_spec (name a) (name x)) as [E|E].
  - f_equal. apply Hinj; [now left|exact E].
  - apply IH; [destruct Hin as [->|Hin]; [congruence|exact Hin]|]. intros y Hy. apply Hinj. now right.
Qed.

Lemma find_no_name {A} (name : A -> string) (l : list A) s : (forall y, In y l -> name y <> s) ->
  find (fun y => String.eqb (name y) s) l = None.
Proof.
  induction l as [|a l IH]; intros Hno; [reflexivity|]. cbn [find].
  destruct (String.eqb_spec (name a) s) as [E|_]; [destruct (Hno a (or_introl eq_refl) E)|].
  apply IH. intros y Hy. apply Hno. now right.
Qed.

Section Construction.
  Variables (md : model_dict) (scale shift : nat -> string -> R) (val : label -> R).
  Let all := latent_of md ++ observed_of md.
  Let latent g := existsb (String.eqb g) (latent_of md).

  Definition adapted_coefficient (t : nat) (f s name : string) : R :=
    let beta name := val (CTransition, t, f, name) in
    let slope g := if latent g then / scale t g else 1 in
    let offset g := if latent g then shift t g / scale t g else 0 in
    if String.eqb s "log_ces_general" then
      if String.eqb name "tfp" then scale (t + 1)%nat f * beta "tfp"%string
      else match find (fun g => String.eqb g name) all with
           | Some g => beta g * exp (shift (t + 1)%nat f / (scale (t + 1)%nat f * beta "tfp"%string) - beta ("sigma_" ++ g)%string * offset g)
           | None =>
               match find (fun g => String.eqb ("sigma_" ++ g) name) all with
               | Some g => slope g * beta ("sigma_" ++ g)%string
               | None => 0
               end
           end
    else if String.eqb name "constant" then new_constant all offset (scale (t + 1)%nat f) (shift (t + 1)%nat f) s beta
    else match find (fun g => String.eqb g name) all with
         | Some g => new_linear all slope offset (scale (t + 1)%nat f) s beta g
         | None =>
             match find (fun g => String.eqb (g ++ " ** 2") name) all with
             | Some g => new_square slope (scale (t + 1)%nat f) s beta g
             | None =>
                 match find (fun ab => String.eqb (fst ab ++ " * " ++ snd ab) name) (pairs_in_order all) with
                 | Some ab => new_interaction slope (scale (t + 1)%nat f) s beta ab
                 | None => 0
                 end
             end
         end.

  Definition adapted_value (lb : label) : R :=
    match lb with
    | (CLoadings, t, _, f) => val lb / scale t f
    | (CControls, t, v, c) =>
        if String.eqb c "constant"
        then val lb - sum_of (latent_of md) (fun f => val (CLoadings, t, v, f) * shift t f / scale t f)
        else val lb
    | (CInitStates, t, _, f) => scale t f * val lb + shift t f
    | (CInitChol, t, _, name) =>
        match find (fun fg => String.eqb (cov_name (fst fg) (snd fg)) name) (list_prod (latent_of md) (latent_of md)) with
        | Some fg => val lb * scale O (fst fg)
        | None => val lb
        end
    | (CShockSds, t, f, _) => val lb * scale (S t) f
    | (CTransition, t, f, name) =>
        match dget (md_factors md) f with
        | Some fs => match fs_transition fs with TStr s => adapted_coefficient t f s name | _ => val lb end
        | None => val lb
        end
    | _ => val lb
    end.

  Variables (p : processed) (n : nat).
  Hypothesis Hwf : wf_dicts md.
  Hypothesis Hg : good_names md.
  Hypothesis Hp : process_model md = Ok p.
  Hypothesis Hn : has_n_periods md n.
  Hypothesis Hquad : flexible_model md.
  Hypothesis Hproper : proper_productions md n val.
  Hypothesis Hz : forall lb, ~ In lb (params_index_of p) -> val lb = 0.
  Hypothesis Hconst : forall t f fs, (t + 1 < n)%nat -> In (f, fs) (md_factors md) -> fs_transition fs = TStr "constant" ->
    scale (t + 1)%nat f = scale t f /\ shift (t + 1)%nat f = shift t f.

  Let idx := params_index_of p.
  Definition adapted_params : list R := map adapted_value (params_index_of p).
  Let val' := val_of 0 idx adapted_params.

  Let Hu : NoDup idx. Proof. exact (idx_NoDup md p Hwf Hg Hp). Qed.
  Let V : forall lb, In lb idx -> val' lb = adapted_value lb.
  Proof. intros lb. apply val_of_values, Hu. Qed.

  Lemma adapted_units : renormalized_factor_units md n scale shift val val'.
  Proof.
    assert (Z : forall lb, ~ In lb idx -> val' lb = 0) by (apply (values_ok idx), Hu).
    assert (D : forall lb, {In lb idx} + {~ In lb idx}) by (intros lb; apply in_dec, label_eq_dec).
    assert (Q : forall lb c, (In lb idx -> adapted_value lb = val lb * c) -> val' lb = val lb * c).
    { intros lb c E. destruct (D lb) as [I|N]; [now rewrite V, E|]. rewrite (Z _ N), (Hz _ N). ring. }
    split; [|split; [|split; [|split; [|split; [|split; [|split]]]]]].
    - intros t v f _ _. apply Q. reflexivity.
    - intros t v Hin. apply V. apply (In_params_index md p _ Hwf Hp). constructor; [|now left].
      rewrite <- (equations_keys md p n Hwf Hp Hn) in Hin. now apply (In_p_update_keys md p Hwf Hp).
    - intros e f He Hf. apply V. apply (In_params_index md p _ Hwf Hp). now constructor.
    - intros e f g Hf Hgl. apply Q. intros _. cbn [adapted_value].
      pose proof (find_name (fun fg => cov_name (fst fg) (snd fg)) (list_prod (latent_of md) (latent_of md)) (f, g)) as F.
      cbn [fst snd] in F. rewrite F; [reflexivity|now apply in_prod|].
      intros [a b] Hab E. apply in_prod_iff in Hab. cbn [fst snd] in E.
      apply cov_name_inj in E; [|apply Hg; tauto|apply Hg; exact Hf]. destruct E as [-> ->]. reflexivity.
    - intros t f _. apply Q. reflexivity.
    - intros t v c Hc. rewrite (Q _ 1); [ring|]. intros _. cbn [adapted_value].
      destruct (String.eqb_spec c "constant") as [->|_]; [|ring]. destruct Hg as (_ & _ & _ & _ & Hcc & _). contradiction.
    - intros t v. rewrite (Q _ 1); [ring|]. intros _. cbn. ring.
    - intros e. rewrite (Q _ 1); [ring|]. intros _. cbn. ring.
  Qed.

  Lemma adapted_transitions : adapted_productions md n scale shift val val'.
  Proof.
    intros t f fs Ht Hin. destruct (proj2 Hquad f fs Hin) as [Ec|(s & Es & Hs')].
    { left. split; [exact Ec|]. now apply (Hconst t f fs). }
    right. exists s. split; [exact Es|].
    assert (Hclean : clean_factors all) by (split; apply Hg).
    assert (W : forall name, In name (transition_parameters all (TStr s)) -> val' (CTransition, t, f, name) = adapted_coefficient t f s name).
    { intros name Hname. rewrite V.
      - cbn [adapted_value]. rewrite (In_dget (md_factors md) f fs) by (try apply Hwf; assumption). now rewrite Es.
      - apply (In_params_index md p _ Hwf Hp). apply (par_transition md t n f fs); [exact Hn|exact Ht|exact Hin|]. now rewrite Es. }
    assert (N1 : forall g, In g all -> g <> "constant"%string).
    { intros g Hgi ->. apply (proj2 Hclean) in Hgi. cbn in Hgi. tauto. }
    assert (N2 : forall g h, In g all -> g <> (h ++ " ** 2")%string).
    { intros g h Hgi E. apply has_star_not in E; [exact E|]. now apply Hclean. }
    assert (N3 : forall g (ab : string * string), In g all -> g <> (fst ab ++ " * " ++ snd ab)%string).
    { intros g ab Hgi E. revert E. apply has_star_not2. now apply Hclean. }
    assert (N4 : forall g ab, In g all -> In ab (pairs_in_order all) -> (g ++ " ** 2")%string <> (fst ab ++ " * " ++ snd ab)%string).
    { intros g [a b] Hgi Hab E. apply In_pairs in Hab. cbn [fst snd] in E.
      apply star_name_split in E; [|now apply Hclean|apply Hclean; tauto]. destruct E as [_ E]. discriminate. }
    destruct Hs' as [Hs| ->].
    2:{ right. left. split; [reflexivity|]. destruct (Hproper t f fs Ht Hin Es) as [Sh T0].
        split; [exact Sh|]. split; [exact T0|].
        assert (M1 : forall g, In g all -> g <> "tfp"%string).
        { intros g Hgi ->. apply (proj2 Hclean) in Hgi. cbn in Hgi. tauto. }
        assert (M2 : forall g h, In g all -> g <> ("sigma_" ++ h)%string) by (intros g h Hgi; apply Hclean; exact Hgi).
        split; [|split].
        - rewrite W; [reflexivity|]. cbn [transition_parameters]. rewrite !in_app_iff. cbn [In]. tauto.
        - intros g Hgi. cbv beta. rewrite W.
          + unfold adapted_coefficient. change (String.eqb "log_ces_general" "log_ces_general") with true. cbv iota.
            destruct (String.eqb_spec ("sigma_" ++ g) "tfp") as [E|_]; [discriminate|].
            rewrite (find_no_name (fun g => g) all); [|intros y Hy; now apply M2].
            rewrite (find_name (fun g => "sigma_" ++ g)%string all g Hgi); [reflexivity|]. intros y _ E. now apply append_inj_l in E.
          + cbn [transition_parameters]. apply in_or_app; right. apply in_or_app; left.
            exact (in_map (fun f => "sigma_" ++ f)%string _ _ Hgi).
        - intros g Hgi. cbv beta. rewrite W.
          + unfold adapted_coefficient. change (String.eqb "log_ces_general" "log_ces_general") with true. cbv iota.
            rewrite (proj2 (String.eqb_neq g "tfp") (M1 g Hgi)).
            rewrite (find_name (fun g => g) all g Hgi) by auto. reflexivity.
          + cbn [transition_parameters]. apply in_or_app. now left. }
    left. split; [exact Hs|].
    assert (Eg : String.eqb s "log_ces_general" = false) by (destruct Hs as [-> | [-> | ->]]; reflexivity).
    split; [|split; [|split]].
    - intros g Hgi. cbv beta. rewrite W.
      + unfold adapted_coefficient. rewrite Eg, (proj2 (String.eqb_neq g "constant") (N1 g Hgi)).
        rewrite (find_name (fun g => g) all g Hgi) by auto. reflexivity.
      + destruct Hs as [-> | [-> | ->]]; apply in_or_app; now left.
    - intros Hl g Hgi. cbv beta. rewrite W.
      + unfold adapted_coefficient. rewrite Eg.
        destruct (String.eqb_spec (g ++ " ** 2")%string "constant") as [E|_]; [symmetry in E; now apply constant_no_star in E|].
        rewrite (find_no_name (fun g => g) all); [|intros y Hy; now apply N2].
        rewrite (find_name (fun g => g ++ " ** 2")%string all g Hgi); [reflexivity|]. intros y _ E. now apply append_inj_r in E.
      + destruct Hs as [-> | [-> | ->]]; [congruence| |]; apply in_or_app; right; apply in_or_app; left;
          exact (in_map (fun f => f ++ " ** 2")%string _ _ Hgi).
    - intros -> ab Hab. cbv beta. rewrite W.
      + unfold adapted_coefficient. rewrite Eg.
        destruct (String.eqb_spec (fst ab ++ " * " ++ snd ab)%string "constant") as [E|_]; [symmetry in E; now apply constant_no_star2 in E|].
        rewrite (find_no_name (fun g => g) all); [|intros y Hy; now apply N3].
        rewrite (find_no_name (fun g => g ++ " ** 2")%string all); [|intros y Hy; now apply N4].
        rewrite (find_name (fun ab => fst ab ++ " * " ++ snd ab)%string (pairs_in_order all) ab Hab); [reflexivity|].
        intros [a b] Hy E. destruct ab as [c d]. apply In_pairs in Hy, Hab. cbn [fst snd] in E.
        apply star_name_split in E; [|apply Hclean; tauto|apply Hclean; tauto]. destruct E as [-> E]. congruence.
      + cbn [transition_parameters]. apply in_or_app; right. apply in_or_app; right. apply in_or_app; left.
        exact (in_map (fun fg => fst fg ++ " * " ++ snd fg)%string _ _ Hab).
    - rewrite W.
      + unfold adapted_coefficient. rewrite Eg. reflexivity.
      + destruct Hs as [-> | [-> | ->]]; cbn [transition_parameters]; rewrite !in_app_iff; cbn [In]; tauto.
  Qed.
End Construction.

(** ** Normalizations *)

Section Normalize.
  Variables (md : model_dict) (n : nat) (val : label -> R) (var : nat -> string -> string).

  Definition is_constant (f : string) : bool :=
    match dget (md_factors md) f with
    | Some fs => match fs_transition fs with TStr s => String.eqb s "constant" | _ => false end
    | None => false
    end.
  Definition norm_period (t : nat) (f : string) : nat := if is_constant f then O else t.
  Definition norm_scale (t : nat) (f : string) : R := let t := norm_period t f in val (CLoadings, t, var t f, f).
  Definition norm_shift (t : nat) (f : string) : R := let t := norm_period t f in val (CControls, t, var t f, "constant"%string).

  Hypothesis Hwf : wf_dicts md.
  Hypothesis Hded : dedicated md n val var.

  Lemma is_constant_spec f fs : In (f, fs) (md_factors md) -> (is_constant f = true <-> fs_transition fs = TStr "constant").
  Proof.
    intros Hin. unfold is_constant. rewrite (In_dget (md_factors md) f fs) by (try apply Hwf; assumption).
    destruct (fs_transition fs) as [s| |]; [|split; discriminate..]. rewrite String.eqb_eq. split; congruence.
  Qed.

  Lemma norm_period_in t f : normalized_in md (norm_period t f) f.
  Proof.
    unfold norm_period. destruct (is_constant f) eqn:E; [now left|]. right. intros fs Hin F.
    apply (is_constant_spec f fs Hin) in F. congruence.
  Qed.

  Lemma norm_period_same t f : In f (latent_of md) -> normalized_in md t f -> norm_period t f = t.
  Proof.
    intros Hf [-> | Ht]; unfold norm_period; destruct (is_constant f) eqn:E; try reflexivity.
    unfold latent_of in Hf. apply in_map_iff in Hf as ([f' fs] & <- & Hin). apply (is_constant_spec _ fs Hin) in E.
    destruct (Ht fs Hin E).
  Qed.

  Lemma norm_scale_positive t f : (t < n)%nat -> In f (latent_of md) -> 0 < norm_scale t f.
  Proof.
    intros Ht Hf. apply (Hded (norm_period t f) f); [|exact Hf|apply norm_period_in].
    unfold norm_period. destruct (is_constant f); lia.
  Qed.

  Lemma norm_constant t f fs : In (f, fs) (md_factors md) -> fs_transition fs = TStr "constant" ->
    norm_scale (t + 1) f = norm_scale t f /\ norm_shift (t + 1) f = norm_shift t f.
  Proof.
    intros Hin E. apply (is_constant_spec f fs Hin) in E. unfold norm_scale, norm_shift, norm_period. now rewrite E.
  Qed.

  Lemma norm_normalized val' : NoDup (latent_of md) -> renormalized_factor_units md n norm_scale norm_shift val val' -> normalized md n val' var.
  Proof.
    intros Hnd (R1 & R2 & _) t f Ht Hf Hin. destruct (Hded t f Ht Hf Hin) as (Heq & Hpos & Hz).
    assert (Es : norm_scale t f = val (CLoadings, t, var t f, f)) by (unfold norm_scale; now rewrite norm_period_same).
    assert (Ec : norm_shift t f = val (CControls, t, var t f, "constant"%string)) by (unfold norm_shift; now rewrite norm_period_same).
    split.
    - rewrite (R1 t _ f Heq Hf), Es. field. lra.
    - rewrite (R2 t _ Heq), (sum_of_ext _ _ (fun g => if String.eqb f g then val (CLoadings, t, var t f, g) * norm_shift t g / norm_scale t g else 0)).
      + rewrite (sum_of_pick _ f (fun g => val (CLoadings, t, var t f, g) * norm_shift t g / norm_scale t g) Hnd Hf), Es, Ec. field. lra.
      + intros g Hgl. destruct (String.eqb_spec f g) as [_|E]; [reflexivity|]. rewrite (Hz g Hgl) by congruence. unfold Rdiv. ring.
  Qed.
End Normalize.

Lemma positive_scaled a x : 0 < a -> (0 < x * a <-> 0 < x).
Proof. intros Ha. split; intros Hx; [|nra]. destruct (Rle_lt_dec x 0); [nra|assumption]. Qed.
Lemma zero_scaled a x : a <> 0 -> (x * a = 0 <-> x = 0).
Proof. intros Ha. split; [intros E; apply Rmult_integral in E; tauto|intros ->; ring]. Qed.

Lemma restrictions_kept md n scale shift val val' : (forall t f, (t < n)%nat -> In f (latent_of md) -> 0 < scale t f) -> (1 <= n)%nat ->
  (forall t v, In (t, v) (equations md n) -> (t < n)%nat) ->
  renormalized_factor_units md n scale shift val val' -> same_restrictions md n val val'.
Proof.
  intros Hpos H1 Heq (R1 & _ & R3 & R4 & R5 & _ & R7 & R8). split; [exact R7|]. split; [exact R8|].
  split; [|split; [|split; [|split]]].
  - intros t f Ht Hf. rewrite (R5 t f Hf). apply positive_scaled, Hpos; [lia|exact Hf].
  - intros t f Ht Hf. rewrite (R5 t f Hf). apply zero_scaled, Rgt_not_eq, Hpos; [lia|exact Hf].
  - intros e f g Hf Hgl. rewrite (R4 e f g Hf Hgl). apply positive_scaled, Hpos; [lia|exact Hf].
  - intros e e' f He He' Hf. rewrite (R3 e f He Hf), (R3 e' f He' Hf). pose proof (Hpos O f H1 Hf) as P.
    split; intros L; [apply (Rmult_le_reg_l _ _ _ P); lra|apply (Rmult_le_compat_l (scale O f)) in L; lra].
  - intros t v f Hin Hf. rewrite (R1 t v f Hin Hf). apply zero_scaled, Rinv_neq_0_compat, Rgt_not_eq, Hpos; [exact (Heq t v Hin)|exact Hf].
Qed.

(** Users must normalize the loading and the constant of a measurement of every factor in every
    period (in the first period for factors that are constant over time). With these production
    functions this is without loss of generality: for all parameters
    there are parameters that satisfy the normalizations, obey the same restrictions and give the
    same likelihood for all data sets. *)
Theorem C111_normalizations_without_loss :
  forall md p n params val var,
    wf_dicts md -> good_names md -> process_model md = Ok p -> has_n_periods md n -> (2 <= n)%nat -> flexible_model md ->
    every_period_measured md n -> 0 <= Q2R (o_sigma_points_scale (p_options p)) ->
    parameter_values (params_index_of p) params val -> proper_productions md n val -> dedicated md n val var ->
    exists params' val' scale shift,
      length params' = length (params_index_of p) /\ parameter_values (params_index_of p) params' val' /\
      normalized md n val' var /\ same_restrictions md n val val' /\
      (forall t f, (t < n)%nat -> In f (latent_of md) -> 0 < scale t f) /\
      forall qr nan neg_inf custom df ids lv ar ps debug,
        correct_qr qr -> total_custom custom -> likelihood_setting md p n df ids lv ar params ps ->
        nondegenerate md n (params_index_of p) val (arr2 (ps_scaling ps)) ->
        let tfunc := model_tfunc nan neg_inf custom md (p_labels p) in
        (exists ps', likelihood_setting md p n df ids lv ar params' ps') /\
        match log_likelihood qr nan tfunc p ar debug params, log_likelihood qr nan tfunc p ar debug params' with
        | Ok out, Ok out' => rescaled_output md n (length ids) scale shift out out'
        | Err e, Err e' => e = e'
        | _, _ => False
        end.
Proof.
  intros md p n params val var Hwf Hg Hp Hn H2 Hquad Hev Hkappa Hval Hproper Hded.
  set (scale := norm_scale md val var). set (shift := norm_shift md val var).
  set (params' := adapted_params md scale shift val p). set (val' := val_of 0 (params_index_of p) params').
  assert (Hu : NoDup (params_index_of p)) by (exact (idx_NoDup md p Hwf Hg Hp)).
  assert (Hpos : forall t f, (t < n)%nat -> In f (latent_of md) -> 0 < scale t f) by (exact (norm_scale_positive md n val var Hwf Hded)).
  assert (Hren : renormalized_factor_units md n scale shift val val') by (exact (adapted_units md scale shift val p n Hwf Hg Hp Hn (proj2 Hval))).
  assert (Had : adapted_productions md n scale shift val val').
  { apply (adapted_transitions md scale shift val p n Hwf Hg Hp Hn Hquad Hproper). intros t f fs _. apply norm_constant, Hwf. }
  assert (Hval' : parameter_values (params_index_of p) params' val') by (exact (values_ok _ _ Hu)).
  exists params', val', scale, shift. split; [apply map_length|]. split; [exact Hval'|].
  split. { apply (norm_normalized md n val var Hwf Hded); [|exact Hren]. destruct Hg as [Nd _]. now apply NoDup_app_l in Nd. }
  split.
  { refine (restrictions_kept md n scale shift val val' Hpos ltac:(lia) _ Hren).
    intros t v Hin. exact (equations_period md n t v Hin). }
  split; [exact Hpos|].
  intros qr nan neg_inf custom df ids lv ar ps debug Hqr Hcustom H Hnd tfunc.
  assert (exists ps', likelihood_setting md p n df ids lv ar params' ps') as [ps' H'].
  { destruct (p_dims_eq md p Hp) as (_ & _ & _ & Dm & _).
    assert (Hnm : (1 <= n_mixtures_of md)%nat) by (rewrite <- Dm; apply (parse_mixtures p params (length ids) ps); apply H).
    destruct (C09_parsing_succeeds R 0 1 ln md p n (length ids) params' Hwf Hu Hp Hn (map_length _ _) (clean_no_anchors md (proj1 Hquad)) H2 Hnm) as [ps' Hps'].
    exists ps'. destruct H as (A1 & A2 & A3 & _). split; [exact A1|]. split; [exact A2|]. split; [exact A3|]. split; [apply map_length|exact Hps']. }
  split; [now exists ps'|].
  refine (C111_scale_and_location_absorbed qr nan neg_inf custom md p n df ids lv ar params params' ps ps' val val' scale shift debug
    Hqr Hcustom H Hval H' Hval' (proj1 Hquad) Hev Hnd Hkappa _ Hren Had).
  intros t f Ht Hf. apply Rgt_not_eq, Hpos; assumption.
Qed.
Print Assumptions C111_normalizations_without_loss.

(** Period by period normalizations do not respect the restriction that the coefficients of
    all periods of a development stage are the same. They do if the scale and the location
    are the same in all periods. *)
Theorem C111_stages_kept :
  forall md n scale shift val val' s t f fs,
    adapted_productions md n scale shift val val' -> (s + 1 < n)%nat -> (t + 1 < n)%nat -> In (f, fs) (md_factors md) ->
    (forall g, In g (latent_of md) -> scale s g = scale t g /\ shift s g = shift t g) ->
    scale (s + 1)%nat f = scale (t + 1)%nat f -> shift (s + 1)%nat f = shift (t + 1)%nat f ->
    (forall name, In name (transition_parameters (latent_of md ++ observed_of md) (fs_transition fs)) ->
       val (CTransition, s, f, name) = val (CTransition, t, f, name)) ->
    forall name, In name (transition_parameters (latent_of md ++ observed_of md) (fs_transition fs)) ->
      val' (CTransition, s, f, name) = val' (CTransition, t, f, name).
Proof.
  intros md n scale shift val val' s t f fs Had Hs Ht Hin Hsame Hc Hd Hv name Hname.
  set (all := latent_of md ++ observed_of md) in *.
  destruct (Had s f fs Hs Hin) as [(Es & _)|(k & Es & A')]; [rewrite Es in Hname; destruct Hname|].
  destruct (Had t f fs Ht Hin) as [(Es' & _)|(k' & Es' & B')]; [rewrite Es' in Hname; destruct Hname|].
  rewrite Es in Es'. injection Es' as <-. rewrite Es in Hname, Hv. fold all in A', B'. rewrite Hc, Hd in A'.
  assert (Hsl : forall g, (if existsb (String.eqb g) (latent_of md) then / scale s g else 1) = (if existsb (String.eqb g) (latent_of md) then / scale t g else 1)).
  { intros g. destruct (existsb (String.eqb g) (latent_of md)) eqn:E; [|reflexivity]. apply smem_In in E. now rewrite (proj1 (Hsame g E)). }
  assert (Hof : forall g, (if existsb (String.eqb g) (latent_of md) then shift s g / scale s g else 0)
                        = (if existsb (String.eqb g) (latent_of md) then shift t g / scale t g else 0)).
  { intros g. destruct (existsb (String.eqb g) (latent_of md)) eqn:E; [|reflexivity]. apply smem_In in E. now destruct (Hsame g E) as [-> ->]. }
  destruct A' as [[Hk A]|[[-> A]|[-> A]]].
  2:{ destruct B' as [[[E|[E|E]] _]|[[_ B]|[E _]]]; try discriminate E.
      destruct A as (_ & _ & A3 & A4 & A5). destruct B as (_ & _ & B3 & B4 & B5). cbv beta in A3, A4, A5, B3, B4, B5.
      cbn [transition_parameters] in Hname, Hv.
      assert (Vt : val (CTransition, s, f, "tfp"%string) = val (CTransition, t, f, "tfp"%string)).
      { apply Hv. rewrite !in_app_iff. cbn [In]. tauto. }
      assert (Vs : forall g, In g all -> val (CTransition, s, f, ("sigma_" ++ g)%string) = val (CTransition, t, f, ("sigma_" ++ g)%string)).
      { intros g Hg. apply Hv. apply in_or_app; right. apply in_or_app; left. exact (in_map (fun f => "sigma_" ++ f)%string _ _ Hg). }
      rewrite !in_app_iff in Hname. destruct Hname as [Hg|[Hg|[<-|[]]]].
      - rewrite (A5 _ Hg), (B5 _ Hg), Hof, Vt, (Vs _ Hg), (Hv name); [reflexivity|]. apply in_or_app. now left.
      - apply in_map_iff in Hg as (g & <- & Hg). now rewrite (A4 _ Hg), (B4 _ Hg), Hsl, (Vs _ Hg).
      - now rewrite A3, B3, Vt. }
  2:{ destruct B' as [[[E|[E|E]] _]|[[E _]|[_ B]]]; try discriminate E.
      destruct A as (_ & _ & _ & A4 & A5). destruct B as (_ & _ & _ & B4 & B5). cbv beta in A4, A5, B4, B5.
      cbn [transition_parameters] in Hname, Hv.
      assert (Vp : val (CTransition, s, f, "phi"%string) = val (CTransition, t, f, "phi"%string)).
      { apply Hv. rewrite !in_app_iff. cbn [In]. tauto. }
      rewrite in_app_iff in Hname. destruct Hname as [Hg|[<-|[]]].
      - rewrite (A5 _ Hg), (B5 _ Hg), Hof, Vp, (Hv name); [reflexivity|]. apply in_or_app. now left.
      - now rewrite A4, B4, Vp. }
  assert (B : adapted_coefficients all (fun g => if existsb (String.eqb g) (latent_of md) then / scale t g else 1)
                (fun g => if existsb (String.eqb g) (latent_of md) then shift t g / scale t g else 0)
                (scale (t + 1)%nat f) (shift (t + 1)%nat f) k (fun name => val (CTransition, t, f, name)) (fun name => val' (CTransition, t, f, name))).
  { destruct B' as [[_ B]|[[E _]|[E _]]]; [exact B| |]; exfalso; destruct Hk as [F|[F|F]]; rewrite F in E; discriminate E. }
  assert (V1 : forall g, In g all -> val (CTransition, s, f, g) = val (CTransition, t, f, g)).
  { intros g Hg. apply Hv. destruct Hk as [-> | [-> | ->]]; apply in_or_app; now left. }
  assert (Vc : val (CTransition, s, f, "constant"%string) = val (CTransition, t, f, "constant"%string)).
  { apply Hv. destruct Hk as [-> | [-> | ->]]; cbn [transition_parameters]; rewrite !in_app_iff; cbn [In]; tauto. }
  assert (V2 : forall g, In g all -> square k (fun name => val (CTransition, s, f, name)) g = square k (fun name => val (CTransition, t, f, name)) g).
  { intros g Hg. unfold square. destruct (String.eqb_spec k "linear") as [_|N]; [reflexivity|]. apply Hv.
    destruct Hk as [-> | [-> | ->]]; [congruence| |]; apply in_or_app; right; apply in_or_app; left;
      exact (in_map (fun f => f ++ " ** 2")%string _ _ Hg). }
  assert (V3 : forall ab, In ab (pairs_in_order all) ->
            interaction k (fun name => val (CTransition, s, f, name)) ab = interaction k (fun name => val (CTransition, t, f, name)) ab).
  { intros ab Hab. unfold interaction. destruct (String.eqb_spec k "translog") as [->|_]; [|reflexivity]. apply Hv.
    cbn [transition_parameters]. apply in_or_app; right. apply in_or_app; right. apply in_or_app; left.
    exact (in_map (fun fg => fst fg ++ " * " ++ snd fg)%string _ _ Hab). }
  destruct A as (A1 & A2 & A3 & A4). destruct B as (B1 & B2 & B3 & B4).
  cbv beta in A1, A2, A3, A4, B1, B2, B3, B4.
  assert (W1 : forall g, In g all -> val' (CTransition, s, f, g) = val' (CTransition, t, f, g)).
  { intros g Hg. rewrite (A1 g Hg), (B1 g Hg). unfold new_linear, interacting. rewrite Hsl, Hof, (V1 g Hg), (V2 g Hg).
    do 2 f_equal. apply sum_of_ext. intros ab Hab. rewrite (V3 ab Hab), !Hof. reflexivity. }
  assert (W2 : k <> "linear"%string -> forall g, In g all -> val' (CTransition, s, f, (g ++ " ** 2")%string) = val' (CTransition, t, f, (g ++ " ** 2")%string)).
  { intros N g Hg. rewrite (A2 N g Hg), (B2 N g Hg). unfold new_square. now rewrite Hsl, (V2 g Hg). }
  assert (W3 : k = "translog"%string -> forall ab, In ab (pairs_in_order all) ->
            val' (CTransition, s, f, (fst ab ++ " * " ++ snd ab)%string) = val' (CTransition, t, f, (fst ab ++ " * " ++ snd ab)%string)).
  { intros N ab Hab. rewrite (A3 N ab Hab), (B3 N ab Hab). unfold new_interaction. now rewrite !Hsl, (V3 ab Hab). }
  assert (W4 : val' (CTransition, s, f, "constant"%string) = val' (CTransition, t, f, "constant"%string)).
  { rewrite A4, B4. unfold new_constant. rewrite Vc. do 2 f_equal. f_equal; [f_equal; [f_equal|]|]; apply sum_of_ext; intros g Hg.
    - now rewrite Hof, (V1 g Hg).
    - now rewrite Hof, (V2 g Hg).
    - now rewrite !Hof, (V3 g Hg). }
  destruct Hk as [-> | [-> | ->]]; cbn [transition_parameters] in Hname; rewrite ?in_app_iff in Hname.
  - destruct Hname as [Hname|[<-|[]]]; [now apply W1|exact W4].
  - destruct Hname as [Hname|[Hname|[<-|[]]]]; [now apply W1| |exact W4].
    apply in_map_iff in Hname as (g & <- & Hg). apply W2; [discriminate|exact Hg].
  - destruct Hname as [Hname|[Hname|[Hname|[<-|[]]]]]; [now apply W1| | |exact W4].
    + apply in_map_iff in Hname as (g & <- & Hg). apply W2; [discriminate|exact Hg].
    + apply in_map_iff in Hname as (g & <- & Hg). now apply W3.
Qed.
Print Assumptions C111_stages_kept.

(** The model with a translog and a constant factor and an observed factor, without anchoring.
    The loadings are t + 2, all constants are 3. *)
Definition free_model : model_dict :=
  mk_md (md_factors kept_model) (md_observed kept_model) (md_controls kept_model) (md_stagemap kept_model) None (md_options kept_model).
Definition free_p : processed := get_ok (process_model free_model) small_p.
Lemma free_accepted : process_model free_model = Ok free_p.
Proof. vm_compute. reflexivity. Qed.

Definition free_value (lb : label) : R :=
  match lb with
  | (CLoadings, t, _, _) => INR (t + 2)
  | (CControls, _, _, _) => 3
  | _ => 1
  end.
Definition free_var (t : nat) (f : string) : string := if String.eqb f "cog" then "a" else "c".

Lemma free_setting : data_setting free_model free_p 3 ex_df ex_ids ex_lv.
Proof.
  destruct kept_setting as (H1 & _ & H3 & H4 & H5 & H6 & H7).
  split; [split; [apply H1|discriminate]|]. split; [exact free_accepted|]. split; [exact H3|].
  split; [split; [constructor|intros fo []]|]. split; [exact H5|]. split; [exact H6|exact H7].
Qed.

Lemma free_good_names : good_names free_model.
Proof. exact kept_good_names. Qed.

Lemma free_flexible : flexible_model free_model.
Proof.
  split; [reflexivity|]. intros f fs [[= <- <-]|[[= <- <-]|[]]]; [right|now left].
  exists "translog"%string. split; [reflexivity|]. left. right. now right.
Qed.

Lemma free_proper val : proper_productions free_model 3 val.
Proof. intros t f fs _ [[= <- <-]|[[= <- <-]|[]]] E; discriminate E. Qed.

Lemma free_dedicated : dedicated free_model 3 (val_of 0 (params_index_of free_p) (map free_value (params_index_of free_p))) free_var.
Proof.
  assert (Hu : NoDup (params_index_of free_p)) by (apply (idx_NoDup free_model free_p); [apply free_setting|exact free_good_names|exact free_accepted]).
  set (val := val_of 0 (params_index_of free_p) _).
  assert (V : forall lb, In lb (params_index_of free_p) -> val lb = free_value lb) by (intros lb; apply val_of_values, Hu).
  assert (Z : forall lb, ~ In lb (params_index_of free_p) -> val lb = 0) by (apply (values_ok (params_index_of free_p)), Hu).
  assert (M : forall lb, label_mem lb (params_index_of free_p) = true -> In lb (params_index_of free_p)) by (intros lb; apply label_mem_In).
  assert (N : forall lb, label_mem lb (params_index_of free_p) = false -> ~ In lb (params_index_of free_p))
    by (intros lb E F; apply label_mem_In in F; congruence).
  intros t f Ht Hf Hno. assert (Hf' : In f ["cog"; "soc"]%string) by exact Hf. clear Hf.
  destruct Hf' as [<-|[<-|[]]].
  - split; [destruct t as [|[|[|t]]]; [vm_compute; tauto..|lia]|]. split.
    + rewrite V; [apply lt_0_INR; lia|]. apply M. destruct t as [|[|[|t]]]; [vm_compute; reflexivity..|lia].
    + intros g Hgl Hne. assert (Hg' : In g ["cog"; "soc"]%string) by exact Hgl. destruct Hg' as [<-|[<-|[]]]; [congruence|].
      apply Z, N. destruct t as [|[|[|t]]]; [vm_compute; reflexivity..|lia].
  - assert (t = O) as ->.
    { destruct Hno as [E|Hno]; [exact E|]. exfalso. apply (Hno (snd (nth 1 (md_factors free_model) (""%string, mk_factor [] TOther None)))); [right; now left|reflexivity]. }
    split; [vm_compute; tauto|]. split.
    + rewrite V; [apply lt_0_INR; lia|]. apply M. vm_compute. reflexivity.
    + intros g Hgl Hne. assert (Hg' : In g ["cog"; "soc"]%string) by exact Hgl. destruct Hg' as [<-|[<-|[]]]; [|congruence].
      apply Z, N. vm_compute. reflexivity.
Qed.

Example C111_nonvacuous : exists ar ps val params' ps' val' scale shift,
  let params := map free_value (params_index_of free_p) in
  let idx := params_index_of free_p in
  correct_qr gram_schmidt /\ total_custom (fun _ _ _ _ => Ok 0) /\
  wf_dicts free_model /\ good_names free_model /\ process_model free_model = Ok free_p /\ has_n_periods free_model 3 /\
  flexible_model free_model /\ every_period_measured free_model 3 /\ 0 <= Q2R (o_sigma_points_scale (p_options free_p)) /\
  likelihood_setting free_model free_p 3 (real_frame ex_df) ex_ids ex_lv ar params ps /\ parameter_values idx params val /\
  nondegenerate free_model 3 idx val (arr2 (ps_scaling ps)) /\ proper_productions free_model 3 val /\ dedicated free_model 3 val free_var /\
  likelihood_setting free_model free_p 3 (real_frame ex_df) ex_ids ex_lv ar params' ps' /\ parameter_values idx params' val' /\
  renormalized_factor_units free_model 3 scale shift val val' /\ adapted_productions free_model 3 scale shift val val' /\
  (forall t f, (t < 3)%nat -> In f (latent_of free_model) -> 0 < scale t f) /\
  scale 1%nat "cog"%string = 3 /\ shift 1%nat "cog"%string = 3 /\ scale 1%nat "soc"%string = 2 /\
  map (fun fa => fs_transition (snd fa)) (md_factors free_model) = [TStr "translog"; TStr "constant"] /\ observed_of free_model = ["inc"%string].
Proof.
  destruct (any_example free_model free_p 3 ex_df ex_ids ex_lv
              (get_ok (process_data 1%Z Z.eqb ex_df (p_labels free_p) (p_update free_p) (p_anch free_p) true) ex_arrays) free_value
              free_setting free_good_names (clean_no_anchors free_model eq_refl)) as (ar & ps & H); [lia|apply Nat.leb_le; reflexivity|vm_compute; reflexivity|].
  assert (Hwf : wf_dicts free_model) by apply free_setting.
  assert (Hn : has_n_periods free_model 3) by apply free_setting.
  assert (Hu : NoDup (params_index_of free_p)) by (exact (idx_NoDup free_model free_p Hwf free_good_names free_accepted)).
  set (val := val_of 0 (params_index_of free_p) (map free_value (params_index_of free_p))).
  set (scale := norm_scale free_model val free_var). set (shift := norm_shift free_model val free_var).
  set (params' := adapted_params free_model scale shift val free_p).
  assert (Hval : parameter_values (params_index_of free_p) (map free_value (params_index_of free_p)) val) by (exact (values_ok _ _ Hu)).
  assert (V : forall lb, In lb (params_index_of free_p) -> val lb = free_value lb) by (intros lb; apply val_of_values, Hu).
  assert (M : forall lb, label_mem lb (params_index_of free_p) = true -> In lb (params_index_of free_p)) by (intros lb; apply label_mem_In).
  destruct (C09_parsing_succeeds R 0 1 ln free_model free_p 3 (length ex_ids) params' Hwf Hu free_accepted Hn (map_length _ _)
    (clean_no_anchors free_model eq_refl)) as [ps' Hps']; [lia|apply Nat.leb_le; reflexivity|].
  exists ar, ps, val, params', ps', (val_of 0 (params_index_of free_p) params'), scale, shift. intros params idx.
  split; [exact gram_schmidt_correct|]. split; [intros ? ? ? ?; now eexists|]. split; [exact Hwf|]. split; [exact free_good_names|].
  split; [exact free_accepted|]. split; [exact Hn|]. split; [exact free_flexible|].
  split. { intros t Ht'. exists "a"%string. destruct t as [|[|[|t]]]; [vm_compute; tauto..|lia]. }
  split. { replace (o_sigma_points_scale (p_options free_p)) with 2%Q by (vm_compute; reflexivity). unfold Q2R. cbn. lra. }
  split; [exact H|]. split; [exact Hval|].
  split.
  { split; [|split].
    - intros t v Hin. rewrite V by exact Hin. cbn. lra.
    - intros e f Hin. rewrite V by exact Hin. cbn. lra.
    - intros t j f fs Ht Hj Hin. left. rewrite V; [cbn; lra|].
      refine (proj2 (In_params_index free_model free_p _ Hwf free_accepted) _).
      exact (par_shock_sd free_model t f 3 Hn Ht (nth_error_In _ _ Hj)). }
  split; [exact (free_proper val)|]. split; [exact free_dedicated|].
  split. { destruct H as (A1 & A2 & A3 & _). split; [exact A1|]. split; [exact A2|]. split; [exact A3|]. split; [apply map_length|exact Hps']. }
  split; [exact (values_ok _ _ Hu)|].
  split; [exact (adapted_units free_model scale shift val free_p 3 Hwf free_good_names free_accepted Hn (proj2 Hval))|].
  split. { apply (adapted_transitions free_model scale shift val free_p 3 Hwf free_good_names free_accepted Hn free_flexible (free_proper val)).
           intros t f fs _. apply norm_constant, Hwf. }
  split; [exact (norm_scale_positive free_model 3 val free_var Hwf free_dedicated)|].
  assert (E1 : scale 1%nat "cog"%string = val (CLoadings, 1%nat, "a"%string, "cog"%string)) by reflexivity.
  assert (E2 : shift 1%nat "cog"%string = val (CControls, 1%nat, "a"%string, "constant"%string)) by reflexivity.
  assert (E3 : scale 1%nat "soc"%string = val (CLoadings, O, "c"%string, "soc"%string)) by reflexivity.
  split; [rewrite E1, V; [cbn; ring|apply M; vm_compute; reflexivity]|].
  split; [rewrite E2, V; [cbn; ring|apply M; vm_compute; reflexivity]|].
  split; [rewrite E3, V; [cbn; ring|apply M; vm_compute; reflexivity]|].
  exact (conj eq_refl eq_refl).
Qed.

(** The same scale and location in all periods. *)
Example C111_stages_nonvacuous : exists val val' fs,
  let scale := fun (_ : nat) (_ : string) => 2 in let shift := fun (_ : nat) (_ : string) => 1 in
  adapted_productions free_model 3 scale shift val val' /\ In ("cog"%string, fs) (md_factors free_model) /\
  (forall name, In name (transition_parameters (latent_of free_model ++ observed_of free_model) (fs_transition fs)) ->
     val (CTransition, 0%nat, "cog"%string, name) = val (CTransition, 1%nat, "cog"%string, name)) /\
  In "cog * inc"%string (transition_parameters (latent_of free_model ++ observed_of free_model) (fs_transition fs)) /\
  val (CTransition, 0%nat, "cog"%string, "cog ** 2"%string) = 1.
Proof.
  assert (Hwf : wf_dicts free_model) by apply free_setting.
  assert (Hn : has_n_periods free_model 3) by apply free_setting.
  assert (Hu : NoDup (params_index_of free_p)) by (exact (idx_NoDup free_model free_p Hwf free_good_names free_accepted)).
  set (val := val_of 0 (params_index_of free_p) (map free_value (params_index_of free_p))).
  assert (V : forall lb, In lb (params_index_of free_p) -> val lb = free_value lb) by (intros lb; apply val_of_values, Hu).
  assert (W : forall fs t name, (t + 1 < 3)%nat -> In ("cog"%string, fs) (md_factors free_model) ->
            In name (transition_parameters (latent_of free_model ++ observed_of free_model) (fs_transition fs)) ->
            val (CTransition, t, "cog"%string, name) = 1).
  { intros fs t name Ht Hin Hname. rewrite V; [reflexivity|]. refine (proj2 (In_params_index free_model free_p _ Hwf free_accepted) _).
    exact (par_transition free_model t 3 "cog" fs name Hn Ht Hin Hname). }
  set (fs := snd (nth 0 (md_factors free_model) (""%string, mk_factor [] TOther None))).
  assert (Hin : In ("cog"%string, fs) (md_factors free_model)) by (left; reflexivity).
  exists val, (val_of 0 (params_index_of free_p) (adapted_params free_model (fun _ _ => 2) (fun _ _ => 1) val free_p)), fs. intros scale shift.
  split. { apply (adapted_transitions free_model scale shift val free_p 3 Hwf free_good_names free_accepted Hn free_flexible (free_proper val)). intros; now split. }
  split; [exact Hin|]. split.
  - intros name Hname. rewrite (W fs 0%nat name ltac:(lia) Hin Hname). symmetry. exact (W fs 1%nat name ltac:(lia) Hin Hname).
  - split; [vm_compute; tauto|]. apply (W fs); [lia|exact Hin|]. vm_compute. tauto.
Qed.

(** The same model with a general CES production function. *)
Definition ces_model : model_dict :=
  mk_md (match md_factors kept_model with
         | (f, mk_factor m _ nrm) :: l => (f, mk_factor m (TStr "log_ces_general") nrm) :: l
         | l => l
         end)
    (md_observed kept_model) (md_controls kept_model) (md_stagemap kept_model) None (md_options kept_model).
Definition ces_p : processed := get_ok (process_model ces_model) small_p.
Lemma ces_accepted : process_model ces_model = Ok ces_p.
Proof. vm_compute. reflexivity. Qed.

Lemma ces_setting : data_setting ces_model ces_p 3 ex_df ex_ids ex_lv.
Proof.
  destruct free_setting as (H1 & _ & H3 & H4 & H5 & H6 & H7).
  split; [split; [apply H1|discriminate]|]. split; [exact ces_accepted|]. split.
  - split.
    + eexists _, _. split; [left; reflexivity|reflexivity].
    + intros f fs [[= <- <-]|[[= <- <-]|[]]]; vm_compute; lia.
  - split; [exact H4|]. split; [exact H5|]. split; [exact H6|exact H7].
Qed.

Lemma ces_good_names : good_names ces_model.
Proof.
  destruct kept_good_names as (G1 & G2 & G3 & G4 & G5 & _). split; [exact G1|].
  split; [exact G2|]. split; [exact G3|]. split; [exact G4|]. split; [exact G5|].
  intros f fs k names [[= <- <-]|[[= <- <-]|[]]] E; discriminate.
Qed.

Lemma ces_flexible : flexible_model ces_model.
Proof.
  split; [reflexivity|]. intros f fs [[= <- <-]|[[= <- <-]|[]]]; [right|now left].
  exists "log_ces_general"%string. split; [reflexivity|]. now right.
Qed.

Lemma ces_dedicated : dedicated ces_model 3 (val_of 0 (params_index_of ces_p) (map free_value (params_index_of ces_p))) free_var.
Proof.
  assert (Hu : NoDup (params_index_of ces_p)) by (apply (idx_NoDup ces_model ces_p); [apply ces_setting|exact ces_good_names|exact ces_accepted]).
  set (val := val_of 0 (params_index_of ces_p) _).
  assert (V : forall lb, In lb (params_index_of ces_p) -> val lb = free_value lb) by (intros lb; apply val_of_values, Hu).
  assert (Z : forall lb, ~ In lb (params_index_of ces_p) -> val lb = 0) by (apply (values_ok (params_index_of ces_p)), Hu).
  assert (M : forall lb, label_mem lb (params_index_of ces_p) = true -> In lb (params_index_of ces_p)) by (intros lb; apply label_mem_In).
  assert (N : forall lb, label_mem lb (params_index_of ces_p) = false -> ~ In lb (params_index_of ces_p))
    by (intros lb E F; apply label_mem_In in F; congruence).
  intros t f Ht Hf Hno. assert (Hf' : In f ["cog"; "soc"]%string) by exact Hf. clear Hf.
  destruct Hf' as [<-|[<-|[]]].
  - split; [destruct t as [|[|[|t]]]; [vm_compute; tauto..|lia]|]. split.
    + rewrite V; [apply lt_0_INR; lia|]. apply M. destruct t as [|[|[|t]]]; [vm_compute; reflexivity..|lia].
    + intros g Hgl Hne. assert (Hg' : In g ["cog"; "soc"]%string) by exact Hgl. destruct Hg' as [<-|[<-|[]]]; [congruence|].
      apply Z, N. destruct t as [|[|[|t]]]; [vm_compute; reflexivity..|lia].
  - assert (t = O) as ->.
    { destruct Hno as [E|Hno]; [exact E|]. exfalso. apply (Hno (snd (nth 1 (md_factors ces_model) (""%string, mk_factor [] TOther None)))); [right; now left|reflexivity]. }
    split; [vm_compute; tauto|]. split.
    + rewrite V; [apply lt_0_INR; lia|]. apply M. vm_compute. reflexivity.
    + intros g Hgl Hne. assert (Hg' : In g ["cog"; "soc"]%string) by exact Hgl. destruct Hg' as [<-|[<-|[]]]; [|congruence].
      apply Z, N. vm_compute. reflexivity.
Qed.

Example C111_ces_nonvacuous : exists val,
  let params := map free_value (params_index_of ces_p) in
  wf_dicts ces_model /\ good_names ces_model /\ process_model ces_model = Ok ces_p /\ has_n_periods ces_model 3 /\
  flexible_model ces_model /\ every_period_measured ces_model 3 /\ 0 <= Q2R (o_sigma_points_scale (p_options ces_p)) /\
  parameter_values (params_index_of ces_p) params val /\ proper_productions ces_model 3 val /\ dedicated ces_model 3 val free_var /\
  map (fun fa => fs_transition (snd fa)) (md_factors ces_model) = [TStr "log_ces_general"; TStr "constant"].
Proof.
  assert (Hwf : wf_dicts ces_model) by apply ces_setting.
  assert (Hn : has_n_periods ces_model 3) by apply ces_setting.
  assert (Hu : NoDup (params_index_of ces_p)) by (exact (idx_NoDup ces_model ces_p Hwf ces_good_names ces_accepted)).
  set (val := val_of 0 (params_index_of ces_p) (map free_value (params_index_of ces_p))).
  assert (V : forall lb, In lb (params_index_of ces_p) -> val lb = free_value lb) by (intros lb; apply val_of_values, Hu).
  exists val. intros params. split; [exact Hwf|]. split; [exact ces_good_names|].
  split; [exact ces_accepted|]. split; [exact Hn|]. split; [exact ces_flexible|].
  split. { intros t Ht'. exists "a"%string. destruct t as [|[|[|t]]]; [vm_compute; tauto..|lia]. }
  split. { replace (o_sigma_points_scale (p_options ces_p)) with 2%Q by (vm_compute; reflexivity). unfold Q2R. cbn. lra. }
  split; [exact (values_ok _ _ Hu)|].
  split; [|split; [exact ces_dedicated|reflexivity]].
  intros t f fs Ht Hin Es.
  assert (W : forall name, In name (transition_parameters (latent_of ces_model ++ observed_of ces_model) (fs_transition fs)) ->
            val (CTransition, t, f, name) = 1).
  { intros name Hname. rewrite V; [reflexivity|]. refine (proj2 (In_params_index ces_model ces_p _ Hwf ces_accepted) _).
    exact (par_transition ces_model t 3 f fs name Hn Ht Hin Hname). }
  rewrite Es in W. split.
  - split.
    + intros g Hg. rewrite W; [lra|]. cbn [transition_parameters]. apply in_or_app. now left.
    + exists "cog"%string. split; [now left|]. rewrite W; [lra|]. cbn [transition_parameters]. apply in_or_app. left. now left.
  - rewrite W; [lra|]. cbn [transition_parameters]. rewrite !in_app_iff. cbn [In]. tauto.
Qed.
