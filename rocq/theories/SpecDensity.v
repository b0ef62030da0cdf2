(** What the words of properties C108 and C109 mean: the likelihood of one individual as a
    function of the values of its measurements. *)
Require Import Reals String Arith ZArith Bool List.
From Verif Require Import PyBase ModelSpec ProcessModel CheckModel SpecModel SpecParse SpecIndex ParamsIndex ParseParams ProcessData SpecData PropsData RSum Kalman SpecKalman Likelihood
  SpecLikelihood SpecStateSpace.
Import ListNotations.
Open Scope R_scope.

(** Data sets that differ in the values of the measurements of individual [id] only.  [x]
    stands for the values: [x k 0] is the value for equation k.  Which of them are
    observed, the controls and the observed factors are the same in all data sets. *)
Definition measurement_family (md : model_dict) (n : nat) (lv : list Z) (id : Z) (observed : nat -> bool)
    (other : nat -> string -> option R) (dfs : path -> frame R) : Prop :=
  forall x,
    (forall k t v, nth_error (equations md n) k = Some (t, v) ->
       handed_over 1 md n (dfs x) lv id t v (if observed k then Some (x k O) else None)) /\
    (forall t c, (t < n)%nat -> In c ("constant"%string :: controls_of md ++ observed_of md) ->
       handed_over 1 md n (dfs x) lv id t c (other t c)).

(** The variables of integration: the observed values, the last one first. *)
Definition observed_values (md : model_dict) (n : nat) (observed : nat -> bool) : list (nat * nat) :=
  map (fun k => (k, O)) (rev (filter observed (seq 0 (length (equations md n))))).

(** [ll] is the sum of the contributions of individual i that the log likelihood function
    reports, as a function of the values. *)
Definition reported_log_likelihood (qr : qr_function) (nan : R) (tfunc : dict (list R) -> vec -> vec) (md : model_dict) (p : processed)
    (n : nat) (ars : path -> arrays R) (params : list R) (i : nat) (ll : path -> R) : Prop :=
  forall x, exists out dbg,
    log_likelihood qr nan tfunc p (ars x) true params = Ok out /\ out_debug out = Some dbg /\
    ll x = rsum (length (equations md n)) (fun k => do_all_contributions dbg k i) /\
    (o_clip_lower (p_options p) = None -> o_clip_upper (p_options p) = None -> ll x = out_contributions out i).
