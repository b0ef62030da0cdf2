(** Model of skillmodels/simulate_data.py. *)
Require Import Reals String Ascii Arith ZArith Bool List.
From Verif Require Import PyBase ModelSpec ProcessModel CheckModel ParamsIndex ParseParams ParamsVec
  ProcessData RSum Kalman Likelihood DebugData.
Import ListNotations.
Open Scope string_scope.
Open Scope list_scope.
Open Scope nat_scope.

(** The random numbers of numpy.random. [G] is the type of the states of the global
    generator; a request returns the drawn numbers and the next state.
    [rn_mvn g d mean cov size] is [multivariate_normal(mean, cov, size)] for a
    distribution of dimension [d]; a call without size is modelled as size 1.
    [rn_normal g mean sd size] is [normal(mean, sd, size)].
    [rn_choice g k p size] is [choice(np.arange(k), p=p, size=size)], which raises
    if [p] are no probabilities. *)
Record random (G : Type) := mk_random {
  rn_mvn : G -> nat -> vec -> mat -> nat -> (nat -> vec) * G;
  rn_normal : G -> R -> R -> nat -> vec * G;
  rn_choice : G -> nat -> vec -> nat -> result ((nat -> nat) * G) }.
Arguments mk_random {G}. Arguments rn_mvn {G}. Arguments rn_normal {G}. Arguments rn_choice {G}.

(** The dictionaries in [policies]. *)
Record policy := mk_policy {
  po_period : Z; po_factor : string; po_effect_size : R; po_standard_deviation : R }.

(** [np.diag(v)] *)
Definition diag (v : vec) : mat := fun a b => if a =? b then v a else 0%R.

(** [l.index(x)] *)
Fixpoint index_of (l : list string) (x : string) : result nat :=
  match l with
  | [] => Err ValueError
  | y :: l' => if String.eqb x y then Ok 0 else do k <- index_of l' x; Ok (S k)
  end.

(** Sorted distinct strings, by code points. *)
Fixpoint sleb (a b : string) : bool :=
  match a, b with
  | EmptyString, _ => true
  | String _ _, EmptyString => false
  | String x a', String y b' =>
      if nat_of_ascii x <? nat_of_ascii y then true
      else if nat_of_ascii y <? nat_of_ascii x then false
      else sleb a' b'
  end.
Fixpoint sinsert (x : string) (l : list string) : list string :=
  match l with
  | [] => [x]
  | y :: l' => if String.eqb x y then y :: l' else if sleb x y then x :: y :: l' else y :: sinsert x l'
  end.
Definition ssort_unique (l : list string) : list string := fold_right sinsert [] l.

(** [pd.concat(tables, axis=0, sort=True)]: the columns are the sorted union; cells of
    columns that a table does not have are NaN. *)
Definition concat_sorted (ts : list table) : result table :=
  match ts with
  | [] => Err ValueError
  | _ =>
      Ok (mk_table (ssort_unique (flat_map tb_columns ts))
           (flat_map (fun t => map (fun row c => if smem c (tb_columns t) then row c else CNan)
                                 (tb_rows t)) ts))
  end.

(** [df.sort_values(["id", "period"])]. Both columns have been filled with integers
    just before. *)
Definition int_of (c : cell) : nat := match c with CInt n => n | _ => 0 end.
Definition key_leb (a b : string -> cell) : bool :=
  (int_of (a "id") <? int_of (b "id"))
  || ((int_of (a "id") =? int_of (b "id")) && (int_of (a "period") <=? int_of (b "period"))).
Fixpoint insert_by_key (row : string -> cell) (l : list (string -> cell)) : list (string -> cell) :=
  match l with
  | [] => [row]
  | row' :: l' => if key_leb row row' then row :: row' :: l' else row' :: insert_by_key row l'
  end.
Definition sort_values (t : table) : table :=
  mk_table (tb_columns t) (fold_right insert_by_key [] (tb_rows t)).

(** simulate_data.py:237-255 and 257-265: one table per period, each with [n_obs] rows.
    The column "id" is filled with the index, which counts the rows of each period. *)
Definition long_table (n_obs : nat) (by_period : list table) : result table :=
  do df <- concat_sorted by_period;
  Ok (sort_values (set_column "id" (fun r => CInt (r mod n_obs)) df)).

Section Simulate.
  Variable nan : R.
  (** transition_info["func"] *)
  Variable tfunc : dict (list R) -> vec -> vec.
  Context {G : Type}.
  Variable rnd : random G.

  (** simulate_data.py:270-288 [_get_shock] *)
  Definition get_shock (g : G) (mean sd : R) (size : nat) : result (vec * G) :=
    if Req_EM_T sd 0 then Ok (fun _ => mean, g)
    else if Rlt_dec 0 sd then Ok (rn_normal rnd g mean sd size)
    else Err ValueError.

  (** simulate_data.py:291-315 [generate_start_states] *)
  Fixpoint start_draws (n_states : nat) (dist_args : list (vec * mat)) (helper_array : nat -> nat)
      (g : G) (is : list nat) : list vec * G :=
    match is with
    | [] => ([], g)
    | i :: is' =>
        let args := nth (helper_array i) dist_args (fun _ => 0%R, fun _ _ => 0%R) in
        let draw := rn_mvn rnd g n_states (fst args) (snd args) 1 in
        let rest := start_draws n_states dist_args helper_array (snd draw) is' in
        (fst draw 0 :: fst rest, snd rest)
    end.
  Definition generate_start_states (g : G) (n_obs n_states : nat) (dist_args : list (vec * mat))
      (weights : list R) : result ((nat -> vec) * G) :=
    if length weights =? 1 then
      do args <- nth_err dist_args 0;
      Ok (rn_mvn rnd g n_states (fst args) (snd args) n_obs)
    else
      do helper <- rn_choice rnd g (length weights) (arr1 weights) n_obs;
      let out := start_draws n_states dist_args (fst helper) (snd helper) (range n_obs) in
      Ok (fun i => nth i (fst out) (fun _ => 0%R), snd out).

  (** simulate_data.py:196-201: the loop over the policies of period [t]. *)
  Fixpoint apply_policies (latent_factors : list string) (n_obs : nat) (policies : list policy)
      (states : nat -> vec) (g : G) : result ((nat -> vec) * G) :=
    match policies with
    | [] => Ok (states, g)
    | po :: policies' =>
        do position <- index_of latent_factors (po_factor po);
        do shock <- get_shock g (po_effect_size po) (po_standard_deviation po) n_obs;
        apply_policies latent_factors n_obs policies'
          (fun i f => if f =? position then (states i f + fst shock i)%R else states i f) (snd shock)
    end.

  Section Loop.
    Variables (d : dims) (latent_factors : list string) (n_obs : nat) (ps : parsed R).
    (** control_data and observed_factor_data by period and individual *)
    Variables (control_data observed_factor_data : nat -> nat -> nat -> option R).
    Variable policies : list policy.

    (** simulate_data.py:203-235: states of period [t + 1]. *)
    Definition next_states (t : nat) (latent_states : nat -> vec) (g : G) : (nat -> vec) * G :=
      let states i f := if f <? n_latent d then latent_states i f
                        else to_number nan (observed_factor_data t i (f - n_latent d)) in
      let trans_coeffs := map (fun fa => (fst fa, nth t (snd fa) [])) (ps_transition ps) in
      let transformed :=
        transform_sigma_points 1 n_obs (fun _ _ => states) (tfunc trans_coeffs)
          (fun r => arr1 (nth (t + r) (ps_scaling ps) []))
          (fun r => arr1 (nth (t + r) (ps_constants ps) [])) in
      let shock_sds := arr1 (nth t (ps_shock_sds ps) []) in
      let errors := rn_mvn rnd g (n_latent d) (fun _ => 0%R) (diag (fun f => shock_sds f ^ 2)%R) n_obs in
      (fun i f => (transformed 0%nat 0%nat i f + fst errors i f)%R, snd errors).

    (** simulate_data.py:194-235. The result has the states of period [t] and of the
        following [n_transitions] periods. A period's states are changed in place by
        its policies. *)
    Fixpoint simulate_states (n_transitions t : nat) (latent_states : nat -> vec) (g : G)
      : result (list (nat -> vec) * G) :=
      match n_transitions with
      | 0 => Ok ([latent_states], g)
      | S n' =>
          let policies_t := filter (fun po => Z.eqb (po_period po) (Z.of_nat t)) policies in
          do shocked <- apply_policies latent_factors n_obs policies_t latent_states g;
          let next := next_states t (fst shocked) (snd shocked) in
          do rest <- simulate_states n' (S t) (fst next) (snd next);
          Ok (fst shocked :: fst rest, snd rest)
      end.

    (** simulate_data.py:318-344 [measurements_from_states]; [rows] are the positions of
        the equations in update_info. The control part is NaN if a control is. *)
    Definition measurements_from_states (t : nat) (states : nat -> vec) (rows : list nat) (g : G)
      : (nat -> nat -> cell) * G :=
      let n_meas := length rows in
      let position j := nth j rows 0 in
      let sds j := arr1 (ps_meas_sds ps) (position j) in
      let epsilon := rn_mvn rnd g n_meas (fun _ => 0%R) (diag (fun j => sds j ^ 2)%R) n_obs in
      let states_part i j := dot (n_latent d) (states i) (arr2 (ps_loadings ps) (position j)) in
      let control_part i j :=
        dot (n_controls d) (fun c => to_number nan (control_data t i c))
          (arr2 (ps_controls ps) (position j)) in
      (fun i j =>
         if forallb (fun c => isfinite (control_data t i c)) (range (n_controls d))
         then CNum (states_part i j + control_part i j + fst epsilon i j)%R
         else CNan,
       snd epsilon).

    (** simulate_data.py:237-251. [loadings_df.loc[t]] raises KeyError if there is no
        equation in the period. *)
    Fixpoint simulate_measurements (u : list urow) (t : nat) (latent_states : list (nat -> vec)) (g : G)
      : result (list table) :=
      match latent_states with
      | [] => Ok []
      | states :: latent_states' =>
          let loc := filter (fun ku => u_period (snd ku) =? t) (enumerate u) in
          match loc with
          | [] => Err KeyError
          | _ =>
              let meas := measurements_from_states t states (map fst loc) g in
              do df <- data_frame n_obs (length loc) (fst meas) (map (fun ku => u_var (snd ku)) loc);
              let df := set_column "period" (fun _ => CInt t) df in
              do rest <- simulate_measurements u (S t) latent_states' (snd meas);
              Ok (df :: rest)
          end
      end.
  End Loop.

  (** simulate_data.py:183-189: mean and covariance matrix of each mixture element,
      from the first individual. *)
  Definition dist_args (d : dims) (ps : parsed R) : result (list (vec * mat)) :=
    do states <- nth_err (ps_states ps) 0;
    do covs <- nth_err (ps_upper_chols ps) 0;
    Ok (map (fun m => (arr2 states m,
                       fun a b => rsum (n_latent d) (fun k => arr3 covs m k a * arr3 covs m k b)%R))
          (range (n_mixtures d))).

  (** simulate_data.py:138-267 [_simulate_dataset]; the measurements and the states. *)
  Definition simulate_from (p : processed) (n_obs : nat) (ps : parsed R)
      (control_data observed_factor_data : nat -> nat -> nat -> option R) (policies : list policy) (g : G)
    : result (table * table) :=
    let d := p_dims p in
    let factors := l_latent (p_labels p) in
    do log_weights <- nth_err (ps_log_weights ps) 0;
    do args <- dist_args d ps;
    do start <- generate_start_states g n_obs (n_latent d) args (map exp log_weights);
    do latent <- simulate_states d factors n_obs ps observed_factor_data policies
                   (n_periods d - 1) 0 (fst start) (snd start);
    do observed_by_period <- simulate_measurements d n_obs ps control_data (p_update p) 0
                               (fst latent) (snd latent);
    do observed_data <- long_table n_obs observed_by_period;
    do latent_by_period <- mapM (fun ts =>
        do lat <- data_frame n_obs (n_latent d) (fun i f => CNum (snd ts i f)) factors;
        Ok (set_column "period" (fun _ => CInt (fst ts)) lat)) (enumerate (fst latent));
    do latent_data <- long_table n_obs latent_by_period;
    Ok (observed_data, latent_data).

  Definition is_nil {A} (l : list A) : bool := match l with [] => true | _ => false end.
  Definition is_none {A} (o : option A) : bool := match o with None => true | Some _ => false end.

  (** [params.reindex(params_index)]: ValueError for duplicates in the index (unless it
      is the target already); NaN for labels that are missing. *)
  Definition reindex_params (params : list (label * R)) (target : list label)
    : result (list (label * R)) :=
    if labels_eqb (map fst params) target then Ok params
    else if has_dup (map fst params) then Err ValueError
    else Ok (map (fun lb => (lb, match row_value params lb with Some x => x | None => nan end)) target).

  Record simulation := mk_simulation {
    si_unanchored : table; si_unanchored_ranges : dict (list (nat * (option R * option R)));
    si_anchored : table; si_anchored_ranges : dict (list (nat * (option R * option R)));
    si_measurements : table }.

  (** simulate_data.py:20-135 [simulate_dataset]. Without data, control_data has shape
      (n_obs, 1); its rows are then broadcast to all individuals. The number of
      individuals in the data is the number of columns of the control array; a warning is
      not modelled. *)
  Definition simulate_dataset (md : model_dict) (params : list (label * R)) (n_obs : option nat)
      (data : option (frame R)) (policies : list policy) (g : G) : result simulation :=
    if is_none data && is_none n_obs then Err ValueError else
    do p <- process_model md;
    if negb (is_nil (l_observed (p_labels p))) && is_none data then Err ValueError
    else if negb (is_nil (tl (l_controls (p_labels p)))) && is_none data then Err ValueError
    else
    do inputs <- match data with
                 | Some df =>
                     do ar <- process_data 1%R req df (p_labels p) (p_update p) (p_anch p) false;
                     Ok (length (nth 0 (ar_controls ar) []),
                         (fun t => oarr2 (nth t (ar_controls ar) [])),
                         (fun t => oarr2 (nth t (ar_observed ar) [])))
                 | None => Ok (match n_obs with Some n => n | None => 0 end,
                               (fun _ _ _ => Some 1%R), (fun _ _ _ => None))
                 end;
    let n_obs := fst (fst inputs) in
    do params <- reindex_params params (params_index_of p);
    do ps <- parse_for 0%R 1%R ln p (map snd params) n_obs;
    do out <- simulate_from p n_obs ps (snd (fst inputs)) (snd inputs) policies g;
    let latent_data := snd out in
    do anchored <- anchor_states_df latent_data md params;
    do ranges <- create_state_ranges latent_data (l_latent (p_labels p));
    do anchored_ranges <- create_state_ranges anchored (l_latent (p_labels p));
    Ok (mk_simulation latent_data ranges anchored anchored_ranges (fst out)).
End Simulate.
