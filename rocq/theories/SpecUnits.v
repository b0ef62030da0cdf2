(** What the words of property C103 mean: the same data recorded in other units, and
    the parameters that describe the same model in these units. *)
Require Import Reals Qreals String Arith ZArith Bool List.
From Verif Require Import PyBase ModelSpec ProcessModel CheckModel SpecModel SpecParse SpecData
  SpecIndex ParamsIndex ParseParams ProcessData RSum Kalman SpecKalman Clipping Likelihood SpecLikelihood.
Import ListNotations.
Open Scope R_scope.

(** New units: by period and variable, the measurement [z] is recorded as [mb * z + ma]
    and the control [x] as [cs * x + ch]. *)
Record units := mk_units { mb : nat -> string -> R; ma : nat -> string -> R; cs : nat -> string -> R; ch : nat -> string -> R }.

(** The same data in other units. Missing values are missing in both data sets; observed
    factors are the same. *)
Definition other_units (md : model_dict) (n : nat) (ids : list Z) (u : units)
    (df : frame R) (lv : list Z) (df' : frame R) (lv' : list Z) : Prop :=
  (forall t v, In (t, v) (equations md n) -> mb u t v <> 0) /\
  (forall t c, (t < n)%nat -> In c (controls_of md) -> cs u t c <> 0) /\
  (forall id t v, In id ids -> In (t, v) (equations md n) ->
     value 1 md df' lv' id t v = option_map (fun z => mb u t v * z + ma u t v) (value 1 md df lv id t v)) /\
  (forall id t c, In id ids -> (t < n)%nat -> In c (controls_of md) ->
     value 1 md df' lv' id t c = option_map (fun x => cs u t c * x + ch u t c) (value 1 md df lv id t c)) /\
  (forall id t f, In id ids -> (t < n)%nat -> In f (observed_of md) ->
     value 1 md df' lv' id t f = value 1 md df lv id t f).

(** The parameters in the new units: the measurement equation [z = c0 + sum cx * x + l * f + sd * e]
    solved for the new variables. All other parameters are the same. *)
Definition converted (md : model_dict) (n : nat) (u : units) (val val' : label -> R) : Prop :=
  (forall t v, In (t, v) (equations md n) ->
     (forall f, In f (latent_of md) -> val' (CLoadings, t, v, f) = mb u t v * val (CLoadings, t, v, f)) /\
     val' (CMeasSds, t, v, "-"%string) = Rabs (mb u t v) * val (CMeasSds, t, v, "-"%string) /\
     (forall c, In c (controls_of md) -> val' (CControls, t, v, c) = mb u t v * val (CControls, t, v, c) / cs u t c) /\
     val' (CControls, t, v, "constant"%string)
     = mb u t v * (val (CControls, t, v, "constant"%string)
                   - sum_list (map (fun c => val (CControls, t, v, c) * ch u t c / cs u t c) (controls_of md))) + ma u t v) /\
  (forall lb, match lb with (CLoadings, _, _, _) | (CMeasSds, _, _, _) | (CControls, _, _, _) => True | _ => val' lb = val lb end).

(** The new units leave the anchoring alone: the anchored scale of the factors does not
    change. *)
Definition anchors_kept (md : model_dict) (n : nat) (val val' : label -> R) : Prop :=
  forall t fo, (t < n)%nat -> In fo (outcomes_of md) ->
    val' (CLoadings, t, copy_name fo, fst fo) = val (CLoadings, t, copy_name fo, fst fo) /\
    (ignores_constant md = false ->
     val' (CControls, t, copy_name fo, "constant"%string) = val (CControls, t, copy_name fo, "constant"%string)).

(** The variable is observed and used. *)
Definition counts (md : model_dict) (n : nat) (df : frame R) (lv : list Z) (id : Z) (t : nat) (v : string) : Prop :=
  value 1 md df lv id t v <> None /\ ~ discarded 1 md n df lv id t.

(** The outputs in the two systems of units. The density of an observed variable is
    divided by the absolute value of the factor, otherwise nothing changes: *)
Definition converted_output (md : model_dict) (n : nat) (ids : list Z) (df : frame R) (lv : list Z) (u : units)
    (o : options) (out out' : output) : Prop :=
  exists c c' : nat -> nat -> R,
    (forall i id k t v, nth_error ids i = Some id -> nth_error (equations md n) k = Some (t, v) ->
       (counts md n df lv id t v -> c' k i = c k i - ln (Rabs (mb u t v))) /\
       (~ counts md n df lv id t v -> c k i = 0 /\ c' k i = 0)) /\
    (forall i, (i < length ids)%nat ->
       out_contributions out i = sum_list (map (fun k => clip_with o (c k i)) (seq 0 (length (equations md n)))) /\
       out_contributions out' i = sum_list (map (fun k => clip_with o (c' k i)) (seq 0 (length (equations md n))))) /\
    out_value out = rsum (length ids) (out_contributions out) /\
    out_value out' = rsum (length ids) (out_contributions out') /\
    match out_debug out, out_debug out' with
    | None, None => True
    | Some d, Some d' =>
        forall i k t v, (i < length ids)%nat -> nth_error (equations md n) k = Some (t, v) ->
          do_all_contributions d k i = c k i /\ do_all_contributions d' k i = c' k i /\
          forall m, (m < n_mixtures_of md)%nat ->
            veq (length (latent_of md)) (do_initial_states d i m) (do_initial_states d' i m) /\
            do_initial_logw d i m = do_initial_logw d' i m /\
            veq (length (latent_of md)) (do_filtered_states d k i m) (do_filtered_states d' k i m) /\
            do_logw d k i m = do_logw d' k i m /\
            do_residuals d' k i m = option_map (Rmult (mb u t v)) (do_residuals d k i m) /\
            do_residual_sds d' k i m = option_map (Rmult (Rabs (mb u t v))) (do_residual_sds d k i m)
    | _, _ => False
    end.
