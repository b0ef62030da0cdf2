(** What the words of properties C41 - C45 mean: the schedule of the filter and the
    likelihood it yields. *)
Require Import Reals Qreals String Arith Bool List.
From Verif Require Import PyBase ModelSpec ProcessModel CheckModel SpecModel SpecParse SpecData
  SpecIndex ParamsIndex ParseParams ProcessData RSum Kalman Clipping Likelihood.
Import ListNotations.
Open Scope R_scope.

(** ** The schedule *)

(** Process equation [k], which belongs to period [t], as a measurement or as an
    anchoring equation; move from period [t] to the next one. *)
Inductive event := Measure (k t : nat) | Anchor (k t : nat) | Transition (t : nat).

Definition is_anchoring_equation (md : model_dict) (v : string) : bool :=
  existsb (String.eqb v) (map copy_name (outcomes_of md)).

(** All equations of period [t], in order. *)
Definition period_events (md : model_dict) (n t : nat) : list event :=
  map (fun ke => if is_anchoring_equation md (snd (snd ke)) then Anchor (fst ke) t
                 else Measure (fst ke) t)
    (filter (fun ke => (fst (snd ke) =? t)%nat) (enumerate (equations md n))).

(** Period by period: the equations of the period, then the transition to the next
    period unless this is the last one. *)
Definition schedule (md : model_dict) (n : nat) : list event :=
  flat_map (fun t => period_events md n t ++ (if (t + 1 <? n)%nat then [Transition t] else []))
    (seq 0 n).

Definition every_period_measured (md : model_dict) (n : nat) : Prop :=
  forall t, (t < n)%nat -> exists v, In (t, v) (equations md n).

(** ** Following a schedule *)

(** Parameters and data by the number of the equation resp. by period. *)
Record inputs := mk_inputs {
  in_loadings : nat -> vec; in_control_params : nat -> vec; in_sd : nat -> R;
  in_values : nat -> nat -> option R;             (* equation, individual *)
  in_controls : nat -> nat -> nat -> option R;    (* period, individual, control *)
  in_observed : nat -> nat -> nat -> option R;    (* period, individual, observed factor *)
  in_coeffs : nat -> dict (list R);               (* transition coefficients of a period *)
  in_shock_sds : nat -> vec; in_scaling : nat -> vec; in_constants : nat -> vec }.

(** Distribution of the latent factors of each individual: a mixture of normals. *)
Record belief := mk_belief {
  be_states : nat -> nat -> vec; be_chols : nat -> nat -> mat; be_logw : nat -> vec }.

(** What is recorded when an equation is processed: the contribution to the log
    likelihood, the states and weights afterwards, the residuals. *)
Record record := mk_record {
  re_contribution : vec; re_states : nat -> nat -> vec; re_logw : nat -> vec;
  re_residuals : nat -> nat -> option R; re_residual_sds : nat -> nat -> option R }.

Section Run.
  Variable qr : qr_function.
  Variable nan : R.
  Variable tfunc : dict (list R) -> vec -> vec.
  Variables (n_obs n_mixtures n_latent n_observed n_controls : nat) (kappa : R).
  Variable inp : inputs.

  (** One Kalman update with equation [k] and the controls of period [t]. For an
      anchoring equation the states and Cholesky factors are not updated. *)
  Definition update_event (anchoring : bool) (k t : nat) (b : belief) : belief * record :=
    let up := kalman_update qr nan n_mixtures n_latent n_controls (be_states b) (be_chols b)
                (in_loadings inp k) (in_control_params inp k) (in_sd inp k) (in_values inp k)
                (in_controls inp t) (be_logw b) in
    let states := if anchoring then be_states b else up_states up in
    let chols := if anchoring then be_chols b else up_chols up in
    (mk_belief states chols (up_logw up),
     mk_record (up_loglikes up) states (up_logw up) (up_residuals up) (up_residual_sds up)).

  (** One prediction with the parameters and observed factors of period [t]; the
      result is unanchored with the parameters of period [t + 1]. *)
  Definition transition_event (t : nat) (b : belief) : result belief :=
    do sc <- kalman_predict qr n_obs n_mixtures n_latent n_observed (be_states b) (be_chols b)
               (sigma_scaling_factor n_latent kappa) (sigma_weights n_latent kappa)
               (tfunc (in_coeffs inp t)) (in_shock_sds inp t)
               (fun r => in_scaling inp (t + r)%nat) (fun r => in_constants inp (t + r)%nat)
               (fun i f => to_number nan (in_observed inp t i f));
    Ok (mk_belief (fst sc) (snd sc) (be_logw b)).

  Fixpoint run (evs : list event) (b : belief) : result (list record) :=
    match evs with
    | [] => Ok []
    | Measure k t :: evs' =>
        let br := update_event false k t b in
        do rest <- run evs' (fst br); Ok (snd br :: rest)
    | Anchor k t :: evs' =>
        let br := update_event true k t b in
        do rest <- run evs' (fst br); Ok (snd br :: rest)
    | Transition t :: evs' => do b' <- transition_event t b; run evs' b'
    end.
End Run.

(** The inputs read from the parsed parameters and the data arrays; see C09 - C12 and
    C29 for the labels of their entries. *)
Definition inputs_of (ps : parsed R) (ar : arrays R) : inputs :=
  mk_inputs (arr2 (ps_loadings ps)) (arr2 (ps_controls ps)) (arr1 (ps_meas_sds ps))
    (fun k => oarr1 (nth k (ar_meas ar) []))
    (fun t => oarr2 (nth t (ar_controls ar) []))
    (fun t => oarr2 (nth t (ar_observed ar) []))
    (fun t => map (fun fa => (fst fa, nth t (snd fa) [])) (ps_transition ps))
    (arr2 (ps_shock_sds ps)) (arr2 (ps_scaling ps)) (arr2 (ps_constants ps)).

Definition initial_belief (ps : parsed R) : belief :=
  mk_belief (arr3 (ps_states ps)) (arr4 (ps_upper_chols ps)) (arr2 (ps_log_weights ps)).

(** Soft clipping with the estimation options. *)
Definition clip_with (o : options) : R -> R :=
  soft_clip (option_map Q2R (o_clip_lower o)) (option_map Q2R (o_clip_upper o))
    (Q2R (o_clip_lower_hardness o)) (Q2R (o_clip_upper_hardness o)).

Definition sum_list (l : list R) : R := fold_right Rplus 0 l.

(** The log likelihood reported for given records: for each individual the sum of
    the clipped contributions, and the sum over individuals. *)
Definition contribution_of (o : options) (recs : list record) (i : nat) : R :=
  sum_list (map (fun r => clip_with o (re_contribution r i)) recs).

(** The output describes these records. *)
Definition reports (o : options) (n_obs : nat) (recs : list record) (b : belief) (debug : bool)
    (out : output) : Prop :=
  out_value out = rsum n_obs (contribution_of o recs) /\
  (forall i, out_contributions out i = contribution_of o recs i) /\
  (debug = false -> out_debug out = None) /\
  (debug = true -> exists dbg, out_debug out = Some dbg /\
     do_initial_states dbg = be_states b /\ do_initial_logw dbg = be_logw b /\
     forall k r, nth_error recs k = Some r ->
       do_all_contributions dbg k = re_contribution r /\
       do_residuals dbg k = re_residuals r /\ do_residual_sds dbg k = re_residual_sds r /\
       do_filtered_states dbg k = re_states r /\ do_logw dbg k = re_logw r).

(** Model, data and parameters fit together and could be processed. *)
Definition likelihood_setting (md : model_dict) (p : processed) (n : nat) (df : frame R)
    (ids lv : list Z) (ar : arrays R) (params : list R) (ps : parsed R) : Prop :=
  data_setting md p n df ids lv /\ good_names md /\
  process_data 1 req df (p_labels p) (p_update p) (p_anch p) true = Ok ar /\
  length params = length (params_index_of p) /\
  parse_for 0 1 ln p params (length ids) = Ok ps.

Definition run_model (qr : qr_function) (nan : R) (tfunc : dict (list R) -> vec -> vec) (p : processed)
    (n_obs : nat) (ps : parsed R) (ar : arrays R) (evs : list event) : result (list record) :=
  run qr nan tfunc n_obs (n_mixtures (p_dims p)) (n_latent (p_dims p)) (n_observed (p_dims p))
    (n_controls (p_dims p)) (Q2R (o_sigma_points_scale (p_options p))) (inputs_of ps ar) evs
    (initial_belief ps).
