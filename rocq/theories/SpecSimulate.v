(** What the words of properties C60 - C62 and C67 - C70 mean. *)
Require Import Reals Qreals String Arith ZArith Bool List.
From Verif Require Import PyBase ModelSpec ProcessModel CheckModel SpecModel SpecParse SpecData SpecIndex
  ParamsIndex ParseParams ParamsVec ProcessData RSum Kalman SpecKalman Clipping Likelihood SpecLikelihood
  DebugData Simulate.
Import ListNotations.
Open Scope string_scope.
Open Scope list_scope.
Open Scope nat_scope.

(** ** Tables in long format *)

(** The cell of a column in the row of an individual and period. The rows are sorted by
    individual and period. *)
Definition shows (n : nat) (tb : table) (i t : nat) (name : string) (c : cell) : Prop :=
  exists row, nth_error (tb_rows tb) (i * n + t) = Some row /\ row name = c.

Definition long_form (n n_obs : nat) (tb : table) : Prop :=
  length (tb_rows tb) = n_obs * n /\
  forall i t, i < n_obs -> t < n -> shows n tb i t "id" (CInt i) /\ shows n tb i t "period" (CInt t).

(** ** What is simulated *)

(** The number of individuals, the controls and the observed factors by period and
    individual. *)
Definition simulation_data (p : processed) (n_obs : option nat) (data : option (frame R)) (n_ind : nat)
    (controls observed : nat -> nat -> nat -> option R) : Prop :=
  match data with
  | Some df => exists ar,
      process_data 1%R req df (p_labels p) (p_update p) (p_anch p) false = Ok ar /\
      n_ind = length (nth 0 (ar_controls ar) []) /\
      controls = (fun t => oarr2 (nth t (ar_controls ar) [])) /\
      observed = (fun t => oarr2 (nth t (ar_observed ar) []))
  | None => n_obs = Some n_ind /\ controls = (fun _ _ _ => Some 1%R) /\ observed = (fun _ _ _ => None)
  end.

(** Parameters and data as in the likelihood; there are no measurements. *)
Definition simulation_inputs (ps : parsed R) (controls observed : nat -> nat -> nat -> option R) : inputs :=
  mk_inputs (arr2 (ps_loadings ps)) (arr2 (ps_controls ps)) (arr1 (ps_meas_sds ps)) (fun _ _ => None)
    controls observed (fun t => map (fun fa => (fst fa, nth t (snd fa) [])) (ps_transition ps))
    (arr2 (ps_shock_sds ps)) (arr2 (ps_scaling ps)) (arr2 (ps_constants ps)).

Section SpecSimulate.
  Variable nan : R.
  Variable tfunc : dict (list R) -> vec -> vec.
  Context {G : Type}.
  Variable rnd : random G.

  (** Model, data and parameters fit together: [rows] is the params DataFrame in the
      order of the model's index, [ps] are the parsed parameters. *)
  Definition simulation_setting (md : model_dict) (p : processed) (n : nat) (params : list (label * R))
      (n_obs : option nat) (data : option (frame R)) (n_ind : nat)
      (controls observed : nat -> nat -> nat -> option R) (rows : list (label * R)) (ps : parsed R) : Prop :=
    wf_dicts md /\ good_names md /\ process_model md = Ok p /\ has_n_periods md n /\
    simulation_data p n_obs data n_ind controls observed /\
    reindex_params nan params (params_index_of p) = Ok rows /\
    parse_for 0%R 1%R ln p (map snd rows) n_ind = Ok ps.

  (** No factor or measurement is called like one of the columns that are added. *)
  Definition no_reserved_names (md : model_dict) (n : nat) : Prop :=
    forall c, c = "id" \/ c = "period" ->
      ~ In c (latent_of md) /\ forall t, ~ In (t, c) (equations md n).

  (** *** Random numbers *)

  (** Numbers of a distribution without variance are equal to the mean. *)
  Definition no_variance_no_noise : Prop :=
    forall g d mean cov size i j, i < size -> j < d -> cov j j = 0%R ->
      fst (rn_mvn rnd g d mean cov size) i j = mean j.

  Definition choice_in_range : Prop :=
    forall g k p size which g', rn_choice rnd g k p size = Ok (which, g') ->
      forall i, i < size -> which i < k.

  (** *** Start *)

  (** The states [X] are drawn from a mixture of [n_mix] normal distributions of dimension
      [d]; the generator moves from [g] to [g']. *)
  Definition drawn_from_mixture (n_mix d n_ind : nat) (weight : vec) (mean : nat -> vec)
      (covariance : nat -> mat) (g : G) (X : nat -> vec) (g' : G) : Prop :=
    (n_mix = 1 -> (X, g') = rn_mvn rnd g d (mean 0) (covariance 0) n_ind) /\
    (n_mix <> 1 -> exists w which gs,
       (forall m, m < n_mix -> w m = weight m) /\
       rn_choice rnd g n_mix w n_ind = Ok (which, gs 0) /\ gs n_ind = g' /\
       forall i, i < n_ind -> which i < n_mix ->
         let draw := rn_mvn rnd (gs i) d (mean (which i)) (covariance (which i)) 1 in
         X i = fst draw 0 /\ gs (S i) = snd draw).

  (** *** Policies *)

  (** The shock of a policy to all individuals: constant without standard deviation,
      otherwise drawn from a normal distribution. *)
  Definition shock_drawn (n_ind : nat) (po : policy) (g : G) (shock : vec) (g' : G) : Prop :=
    (po_standard_deviation po = 0%R /\ (forall i, shock i = po_effect_size po) /\ g' = g) \/
    ((0 < po_standard_deviation po)%R /\
     (shock, g') = rn_normal rnd g (po_effect_size po) (po_standard_deviation po) n_ind).

  (** The shocks of some policies are added one after the other. *)
  Inductive policies_applied (factors : list string) (n_ind : nat)
    : list policy -> (nat -> vec) -> G -> (nat -> vec) -> G -> Prop :=
  | no_policy X g : policies_applied factors n_ind [] X g X g
  | one_policy po rest j shock X g X1 g1 X2 g2 :
      nth_error factors j = Some (po_factor po) ->
      shock_drawn n_ind po g shock g1 ->
      (forall i f, X1 i f = if f =? j then X i f + shock i else X i f)%R ->
      policies_applied factors n_ind rest X1 g1 X2 g2 ->
      policies_applied factors n_ind (po :: rest) X g X2 g2.

  Definition policies_of (policies : list policy) (t : nat) : list policy :=
    filter (fun po => Z.eqb (po_period po) (Z.of_nat t)) policies.

  (** *** History *)

  (** For each period the states at the beginning of the period, the states after the
      policies of the period and the state of the generator at the beginning; the states
      of the generator before the measurements of a period are drawn. *)
  Record history := mk_history {
    hi_start : nat -> nat -> vec; hi_states : nat -> nat -> vec;
    hi_generator : nat -> G; hi_measurement_generator : nat -> G }.

  (** The latent factors, followed by the observed factors. *)
  Definition all_factors (n_lat : nat) (latent : vec) (observed : nat -> option R) : vec :=
    fun f => if f <? n_lat then latent f else to_number nan (observed (f - n_lat)).

  (** The states start with the initial distribution of the filter. In all periods but
      the last one, policies are applied. Then the transition function of the filter
      is applied, with the same anchoring, and a normal shock is added. *)
  Definition valid_history (md : model_dict) (n n_ind : nat) (inp : inputs) (b : belief)
      (policies : list policy) (g : G) (h : history) : Prop :=
    let n_lat := length (latent_of md) in
    drawn_from_mixture (n_mixtures_of md) n_lat n_ind (fun m => exp (be_logw b 0 m))
      (be_states b 0) (fun m => cov n_lat (be_chols b 0 m)) g (hi_start h 0) (hi_generator h 0) /\
    (forall t, t + 1 < n -> exists g1,
       policies_applied (latent_of md) n_ind (policies_of policies t)
         (hi_start h t) (hi_generator h t) (hi_states h t) g1 /\
       let shocks := rn_mvn rnd g1 n_lat (fun _ => 0%R) (diag (fun f => in_shock_sds inp t f ^ 2)%R) n_ind in
       hi_generator h (t + 1) = snd shocks /\
       forall i f, i < n_ind -> f < n_lat ->
         hi_start h (t + 1) i f
         = (anchored_transition (tfunc (in_coeffs inp t))
              (fun r => in_scaling inp (t + r)%nat) (fun r => in_constants inp (t + r)%nat)
              (all_factors n_lat (hi_states h t i) (in_observed inp t i)) f
            + fst shocks i f)%R) /\
    hi_states h (n - 1) = hi_start h (n - 1) /\
    hi_measurement_generator h 0 = hi_generator h (n - 1).

  (** *** Measurements *)

  (** The numbers of the equations of period [t], in order. *)
  Definition period_equations (md : model_dict) (n t : nat) : list nat :=
    map fst (filter (fun ke => fst (snd ke) =? t) (enumerate (equations md n))).

  (** The noise in the measurements of period [t] is drawn from a normal distribution
      with independent components. *)
  Definition measurement_noise (md : model_dict) (n n_ind : nat) (inp : inputs) (t : nat) (g : G)
    : (nat -> vec) * G :=
    let ks := period_equations md n t in
    rn_mvn rnd g (length ks) (fun _ => 0%R) (diag (fun j => in_sd inp (nth j ks 0%nat) ^ 2)%R) n_ind.

  (** What equation [k] predicts for given states and controls; nothing if a control is
      missing. *)
  Definition predicted (md : model_dict) (inp : inputs) (k : nat) (state : vec) (controls : nat -> option R)
      (x : R) : Prop :=
    exists cs, (forall c, c < S (length (controls_of md)) -> controls c = Some (cs c)) /\
      x = (dot (length (latent_of md)) state (in_loadings inp k)
           + dot (S (length (controls_of md))) cs (in_control_params inp k))%R.

  (** The table of measurements belongs to a history: where a variable has an equation,
      its value is the prediction for the states after the policies plus noise, and
      missing if a control is missing. Everything else is missing. *)
  Definition measured (md : model_dict) (n n_ind : nat) (inp : inputs) (h : history) (tb : table) : Prop :=
    long_form n n_ind tb /\
    (forall c, In c (tb_columns tb) <-> c = "id" \/ c = "period" \/ exists t, In (t, c) (equations md n)) /\
    forall t, t < n ->
      let noise := measurement_noise md n n_ind inp t (hi_measurement_generator h t) in
      hi_measurement_generator h (t + 1) = snd noise /\
      forall i, i < n_ind ->
        (forall j k v, nth_error (period_equations md n t) j = Some k ->
           nth_error (equations md n) k = Some (t, v) ->
           (forall x, predicted md inp k (hi_states h t i) (in_controls inp t i) x ->
              shows n tb i t v (CNum (x + fst noise i j)%R)) /\
           ((exists c, c < S (length (controls_of md)) /\ in_controls inp t i c = None) ->
            shows n tb i t v CNan)) /\
        (forall v, v <> "id" -> v <> "period" -> ~ In (t, v) (equations md n) -> shows n tb i t v CNan).

  (** The table of states shows the states of a history after the policies. *)
  Definition shows_states (md : model_dict) (n n_ind : nat) (h : history) (tb : table) : Prop :=
    long_form n n_ind tb /\
    (forall c, In c (tb_columns tb) <-> In c (latent_of md) \/ c = "period" \/ c = "id") /\
    forall i t j f, i < n_ind -> t < n -> nth_error (latent_of md) j = Some f ->
      shows n tb i t f (CNum (hi_states h t i j)).
End SpecSimulate.
