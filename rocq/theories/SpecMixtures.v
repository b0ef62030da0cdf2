(** What the words of property C100 mean: mixtures of normal distributions with the same
    density. *)
Require Import Reals String Arith List.
From Verif Require Import PyBase ModelSpec SpecModel ParamsIndex RSum Kalman SpecKalman Likelihood.
Import ListNotations.
Open Scope R_scope.

(** The same model with [k] elements in the initial mixture. *)
Definition with_mixtures (k : nat) (md : model_dict) : model_dict :=
  mk_md (md_factors md) (md_observed md) (md_controls md) (md_stagemap md) (md_anchoring md)
    (option_map (fun o => mk_opts (Some k) (os_sigma_points_scale o) (os_robust_bounds o) (os_bounds_distance o)
       (os_clip_lower o) (os_clip_upper o) (os_clip_lower_hardness o) (os_clip_upper_hardness o)) (md_options md)).

Definition weight_label (e : nat) : label := (CMixWeights, O, mixture_name e, "-"%string).

(** The initial distribution with parameters [val'] and [k'] elements is the one with
    parameters [val] and [k] elements: element [e'] of the first has the mean and the
    covariance of element [part e'] of the second, and the weight of an element of the
    second is the sum of the weights of these elements. All other parameters are the same.

    With a bijection [part] this is a relabelling of the elements; if [part] maps
    several elements to the same one, identical elements are merged. *)
Definition same_mixture (part : nat -> nat) (k k' : nat) (latent : list string) (val val' : label -> R) : Prop :=
  (forall e', (e' < k')%nat -> (part e' < k)%nat) /\
  (forall e' f, (e' < k')%nat -> In f latent ->
     val' (CInitStates, O, mixture_name e', f) = val (CInitStates, O, mixture_name (part e'), f)) /\
  (forall e' f g, (e' < k')%nat -> In f latent -> In g latent ->
     val' (CInitChol, O, mixture_name e', cov_name f g) = val (CInitChol, O, mixture_name (part e'), cov_name f g)) /\
  (forall e, (e < k)%nat ->
     val (weight_label e) = rsum k' (fun e' => if (part e' =? e)%nat then val' (weight_label e') else 0)) /\
  (forall c t x y, c <> CInitStates -> c <> CInitChol -> c <> CMixWeights -> val' (c, t, x, y) = val (c, t, x, y)).

(** The weights are positive; a single element has weight one. *)
Definition weights_allowed (k : nat) (val : label -> R) : Prop :=
  (forall e, (e < k)%nat -> 0 < val (weight_label e)) /\ (k = 1%nat -> val (weight_label 0) = 1).

(** Two outputs of the likelihood which describe the same distribution: the likelihood and
    all contributions are the same; after every update element [e'] of the second output
    has the filtered states and residuals of element [part e'] of the first one, and the
    weight of an element of the first one is the sum of the weights of these elements. *)
Definition same_mixture_output (part : nat -> nat) (n_obs n_updates k k' n_factors : nat) (out out' : output) : Prop :=
  out_value out = out_value out' /\
  (forall i, (i < n_obs)%nat -> out_contributions out i = out_contributions out' i) /\
  match out_debug out, out_debug out' with
  | None, None => True
  | Some d, Some d' =>
      forall i u, (i < n_obs)%nat -> (u < n_updates)%nat ->
        do_all_contributions d u i = do_all_contributions d' u i /\
        (forall e', (e' < k')%nat ->
           veq n_factors (do_filtered_states d' u i e') (do_filtered_states d u i (part e')) /\
           do_residuals d' u i e' = do_residuals d u i (part e') /\
           do_residual_sds d' u i e' = do_residual_sds d u i (part e')) /\
        (forall e, (e < k)%nat ->
           exp (do_logw d u i e) = rsum k' (fun e' => if (part e' =? e)%nat then exp (do_logw d' u i e') else 0)) /\
        (* hence the means over the elements agree *)
        forall f, (f < n_factors)%nat ->
          rsum k (fun e => exp (do_logw d u i e) * do_filtered_states d u i e f)
          = rsum k' (fun e' => exp (do_logw d' u i e') * do_filtered_states d' u i e' f)
  | _, _ => False
  end.
