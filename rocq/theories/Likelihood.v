(** Model of skillmodels/likelihood_function.py. *)
Require Import Reals Qreals String ZArith Bool List.
From Verif Require Import PyBase ModelSpec ProcessModel CheckModel ParamsIndex ParseParams ParamsVec ProcessData
  RSum Kalman Clipping.
Import ListNotations.
Open Scope R_scope.

(** Lists (arrays that come from parsing and data processing) as functions. *)
Definition arr1 (l : list R) : vec := fun i => nth i l 0.
Definition arr2 (l : list (list R)) : nat -> vec := fun i => arr1 (nth i l []).
Definition arr3 (l : list (list (list R))) : nat -> nat -> vec := fun i => arr2 (nth i l []).
Definition arr4 (l : list (list (list (list R)))) : nat -> nat -> mat := fun i => arr3 (nth i l []).
Definition oarr1 (l : list (option R)) : nat -> option R := fun i => nth i l None.
Definition oarr2 (l : list (list (option R))) : nat -> nat -> option R := fun i => oarr1 (nth i l []).

(** [arr[t]] for a possibly negative index: counted from the end. *)
Definition wrap {A} (d : A) (l : list A) (t : Z) : A :=
  nth (Z.to_nat (if Z.ltb t 0 then t + Z.of_nat (length l) else t)) l d.

Section Likelihood.
  Variable qr : qr_function.
  Variable nan : R.
  (** transition_info["func"]: maps the coefficients of one period (factor by factor)
      and a row with all factors to the next latent factors (see
      TransitionFunctions.v). *)
  Variable tfunc : dict (list R) -> vec -> vec.

  (** likelihood_function.py:241-245 *)
  Record carry := mk_carry {
    ca_states : nat -> nat -> vec; ca_chols : nat -> nat -> mat; ca_logw : nat -> vec }.

  (** likelihood_function.py:247-255, one slice. *)
  Record loop_arg := mk_loop {
    la_period : Z; la_loadings : vec; la_control_params : vec; la_meas_sd : R;
    la_measurements : nat -> option R; la_is_measurement : bool; la_is_predict : bool }.

  (** The debug_info returned by [kalman_update] with debug = True (kalman_filters.py:116-124). *)
  Record update_debug := mk_udebug {
    ud_residuals : nat -> nat -> option R; ud_residual_sds : nat -> nat -> option R;
    ud_logw : nat -> vec }.

  (** likelihood_function.py:382 [static_out] *)
  Record iter_out := mk_iter {
    io_loglikes : vec; io_debug : option update_debug; io_states : nat -> nat -> vec }.

  Section Scan.
    Variables (d : dims) (n_obs : nat) (kappa : R) (ps : parsed R).
    Variables (controls observed : list (list (list (option R)))) (debug : bool).

    (** likelihood_function.py:306-383 [_scan_body] with 386-414. Both branches of
        [lax.cond] are traced, hence an impossible shape in the predict step raises
        in every iteration. *)
    Definition scan_body (ca : carry) (la : loop_arg) : result (carry * iter_out) :=
      let t := la_period la in
      let up := kalman_update qr nan (n_mixtures d) (n_latent d) (n_controls d) (ca_states ca)
                  (ca_chols ca) (la_loadings la) (la_control_params la) (la_meas_sd la)
                  (la_measurements la) (oarr2 (wrap [] controls t)) (ca_logw ca) in
      (* _one_arg_measurement_update, _one_arg_anchoring_update *)
      let states := if la_is_measurement la then up_states up else ca_states ca in
      let chols := if la_is_measurement la then up_chols up else ca_chols ca in
      let logw := up_logw up in
      let info := if debug then Some (mk_udebug (up_residuals up) (up_residual_sds up) logw)
                  else None in
      let trans_coeffs := map (fun fa => (fst fa, wrap [] (snd fa) t)) (ps_transition ps) in
      do predicted <- kalman_predict qr n_obs (n_mixtures d) (n_latent d) (n_observed d) states chols
           (sigma_scaling_factor (n_latent d) kappa) (sigma_weights (n_latent d) kappa)
           (tfunc trans_coeffs) (arr1 (wrap [] (ps_shock_sds ps) t))
           (fun r => arr1 (wrap [] (ps_scaling ps) (t + Z.of_nat r)))
           (fun r => arr1 (wrap [] (ps_constants ps) (t + Z.of_nat r)))
           (fun i f => to_number nan (oarr2 (wrap [] observed t) i f));
      (* _one_arg_predict, _one_arg_no_predict *)
      let new_states := if la_is_predict la then fst predicted else states in
      let new_chols := if la_is_predict la then snd predicted else chols in
      Ok (mk_carry new_states new_chols logw, mk_iter (up_loglikes up) info states).

    (** [lax.scan] *)
    Fixpoint scan (ca : carry) (args : list loop_arg) : result (carry * list iter_out) :=
      match args with
      | [] => Ok (ca, [])
      | la :: args' =>
          do r <- scan_body ca la;
          do rest <- scan (fst r) args';
          Ok (fst rest, snd r :: snd rest)
      end.
  End Scan.

  (** likelihood_function.py:73 *)
  Definition is_measurement_row (r : urow) : bool :=
    match u_purpose r with Some PMeasurement => true | _ => false end.

  (** likelihood_function.py:74-75: the next row belongs to the next period; False for
      the last row, where the shifted Series is NaN. *)
  Fixpoint is_predict_iteration (periods : list nat) : list bool :=
    match periods with
    | [] => []
    | t :: rest =>
        match rest with
        | [] => [false]
        | t' :: _ => Z.eqb (Z.of_nat t - Z.of_nat t') (-1) :: is_predict_iteration rest
        end
    end.

  (** likelihood_function.py:76-81 *)
  Definition iteration_to_period (last_period t : nat) : Z :=
    if Nat.eqb t last_period then (-1)%Z else Z.of_nat t.

  (** The slices of loop_args; [lax.scan] requires that all have the same length. *)
  Definition loop_args (p : processed) (ps : parsed R) (meas : list (list (option R)))
    : result (list loop_arg) :=
    let u := p_update p in
    let periods := map u_period u in
    let last_period := last (l_periods (p_labels p)) 0%nat in
    let n := length u in
    if (length (ps_loadings ps) =? n)%nat && (length (ps_controls ps) =? n)%nat
       && (length (ps_meas_sds ps) =? n)%nat && (length meas =? n)%nat
    then Ok (map (fun k =>
           mk_loop (iteration_to_period last_period (nth k periods 0%nat))
             (arr2 (ps_loadings ps) k) (arr2 (ps_controls ps) k) (arr1 (ps_meas_sds ps) k)
             (oarr1 (nth k meas []))
             (nth k (map is_measurement_row u) false)
             (nth k (is_predict_iteration periods) false)) (seq 0 n))
    else Err ShapeError.

  Record debug_output := mk_debug {
    do_all_contributions : nat -> vec;             (* update, individual *)
    do_residuals : nat -> nat -> nat -> option R;  (* update, individual, mixture *)
    do_residual_sds : nat -> nat -> nat -> option R;
    do_initial_states : nat -> nat -> vec;
    do_initial_logw : nat -> vec;
    do_filtered_states : nat -> nat -> nat -> vec; (* update, individual, mixture, factor *)
    do_logw : nat -> nat -> vec }.                 (* update, individual, mixture *)

  Record output := mk_output {
    out_value : R; out_contributions : vec; out_debug : option debug_output }.

  Definition dummy_iter : iter_out := mk_iter (fun _ => 0) None (fun _ _ _ => 0).
  Definition dummy_debug : update_debug :=
    mk_udebug (fun _ _ => None) (fun _ _ => None) (fun _ _ => 0).
  Definition debug_of (io : iter_out) : update_debug :=
    match io_debug io with Some i => i | None => dummy_debug end.

  (** likelihood_function.py:175-303 [_log_likelihood_jax]. n_obs is the number of
      columns of the measurement array, which process_data.py:139-150 makes equal to the
      number of individuals in the other arrays. *)
  Definition log_likelihood (p : processed) (ar : arrays R) (debug : bool) (params : list R)
    : result output :=
    let d := p_dims p in
    let o := p_options p in
    let n_obs := length (nth 0 (ar_controls ar) []) in
    do ps <- parse_for 0 1 ln p params n_obs;
    do args <- loop_args p ps (ar_meas ar);
    do res <- scan d n_obs (Q2R (o_sigma_points_scale o)) ps (ar_controls ar) (ar_observed ar) debug
                (mk_carry (arr3 (ps_states ps)) (arr4 (ps_upper_chols ps)) (arr2 (ps_log_weights ps)))
                args;
    let outs := snd res in
    let n_updates := length outs in
    let loglikes k := io_loglikes (nth k outs dummy_iter) in
    let clipped k i :=
      soft_clip (option_map Q2R (o_clip_lower o)) (option_map Q2R (o_clip_upper o))
        (Q2R (o_clip_lower_hardness o)) (Q2R (o_clip_upper_hardness o)) (loglikes k i) in
    Ok (mk_output
      (rsum n_updates (fun k => rsum n_obs (fun i => clipped k i)))
      (fun i => rsum n_updates (fun k => clipped k i))
      (if debug
       then Some (mk_debug loglikes
              (fun k => ud_residuals (debug_of (nth k outs dummy_iter)))
              (fun k => ud_residual_sds (debug_of (nth k outs dummy_iter)))
              (arr3 (ps_states ps)) (arr2 (ps_log_weights ps))
              (fun k => io_states (nth k outs dummy_iter))
              (fun k => ud_logw (debug_of (nth k outs dummy_iter))))
       else None)).

  (** Equality of data values (for the number of distinct values in the data check). *)
  Definition req (x y : R) : bool := if Req_EM_T x y then true else false.

  (** likelihood_function.py:26-173 [get_maximization_inputs]: the functions loglike
      (debug = false) and debug_loglike (debug = true, before process_debug_data). *)
  Definition loglike_function (md : model_dict) (df : frame R) (debug : bool)
    : result (list (label * R) -> result output) :=
    do p <- process_model md;
    do ar <- process_data 1 req df (p_labels p) (p_update p) (p_anch p) true;
    Ok (fun params =>
          do v <- get_params_vec params (params_index_of p);
          log_likelihood p ar debug v).
End Likelihood.
