(** Model of skillmodels/kalman_filters.py. Floating point numbers are modelled as
    real numbers. An array is a function from its indices; the shape is given
    separately and entries outside the shape are never read. *)
Require Import Reals Bool Arith List.
From Verif Require Import PyBase RSum.
Import ListNotations.
Open Scope R_scope.

Definition vec := nat -> R.
Definition mat := nat -> nat -> R.

(** [qr m n a] is the second component of [jnp.linalg.qr(a)] for an array of shape
    (m, n) (kalman_filters.py:5). It is a parameter of everything below; what it
    has to satisfy is stated in SpecKalman.v. *)
Definition qr_function := nat -> nat -> mat -> mat.

(** [jax.scipy.stats.norm.logpdf(x, loc, scale)] *)
Definition norm_logpdf (x loc scale : R) : R :=
  - (ln (2 * PI * (scale * scale)) + (x - loc) * (x - loc) / (scale * scale)) / 2.

(** [jax.scipy.special.logsumexp] over an axis of length [n]: shifted by the maximum. *)
Fixpoint rmax (n : nat) (f : nat -> R) : R :=
  match n with
  | O => 0
  | S O => f O
  | S n' => Rmax (rmax n' f) (f n')
  end.
Definition logsumexp (n : nat) (f : nat -> R) : R :=
  rmax n f + ln (rsum n (fun i => exp (f i - rmax n f))).

Definition dot (n : nat) (x y : vec) : R := rsum n (fun i => x i * y i).

Section Update.
  Variable qr : qr_function.
  Variable nan : R. (* stands for the value of NaN in arithmetic *)
  Variables (n_obs n_mixtures n_states n_controls : nat).

  Record update_result := mk_update {
    up_states : nat -> nat -> vec;
    up_chols : nat -> nat -> mat;
    up_logw : nat -> vec;
    up_loglikes : vec;
    up_residuals : nat -> nat -> option R;
    up_residual_sds : nat -> nat -> option R }.

  (** [jnp.isfinite] (kalman_filters.py:56): missing values are [None]. *)
  Definition isfinite (x : option R) : bool := match x with Some _ => true | None => false end.
  Definition to_number (x : option R) : R := match x with Some r => r | None => nan end.

  (** kalman_filters.py:79-82: the array that is decomposed. *)
  Definition update_matrix (meas_sd : R) (f_star : vec) (upper_chol : mat) : mat :=
    fun a b =>
      match a, b with
      | O, O => meas_sd
      | O, S _ => 0
      | S a', O => f_star a'
      | S a', S b' => upper_chol a' b'
      end.

  (** kalman_filters.py:13-133 [kalman_update]. The residuals and their standard
      deviations are only returned with debug = True. *)
  Definition kalman_update (states : nat -> nat -> vec) (upper_chols : nat -> nat -> mat)
      (loadings : vec) (control_params : vec) (meas_sd : R) (measurements : nat -> option R)
      (controls : nat -> nat -> option R) (log_mixture_weights : nat -> vec) : update_result :=
    let not_missing i := isfinite (measurements i) in
    let safe_controls i c := if not_missing i then to_number (controls i c) else 0 in
    let safe_expected i m :=
      dot n_states (states i m) loadings + dot n_controls (safe_controls i) control_params in
    let safe_measurements i :=
      if not_missing i then to_number (measurements i)
      else rsum n_mixtures (safe_expected i) / INR n_mixtures in
    let residuals i m := safe_measurements i - safe_expected i m in
    let f_stars i m a := dot n_states (upper_chols i m a) loadings in
    let r i m :=
      qr (S n_states) (S n_states) (update_matrix meas_sd (f_stars i m) (upper_chols i m)) in
    let new_upper_chols i m a b := r i m (S a) (S b) in
    let root_sigmas i m := r i m O O in
    let abs_root_sigmas i m := Rabs (root_sigmas i m) in
    let kalman_gains i m a := r i m O (S a) / root_sigmas i m in
    let new_states i m a := states i m a + kalman_gains i m a * residuals i m in
    let loglikes_per_dist i m := norm_logpdf (residuals i m) 0 (abs_root_sigmas i m) in
    let weighted i m := loglikes_per_dist i m + log_mixture_weights i m in
    let loglikes i :=
      if (2 <=? n_mixtures)%nat then logsumexp n_mixtures (weighted i) else loglikes_per_dist i O in
    let new_logw i m :=
      if (2 <=? n_mixtures)%nat then weighted i m - loglikes i else log_mixture_weights i m in
    mk_update
      (fun i m a => if not_missing i then new_states i m a else states i m a)
      (fun i m a b => if not_missing i then new_upper_chols i m a b else upper_chols i m a b)
      (fun i m => if not_missing i then new_logw i m else log_mixture_weights i m)
      (fun i => if not_missing i then loglikes i else 0)
      (fun i m => if not_missing i then Some (residuals i m) else None)
      (fun i m => if not_missing i then Some (abs_root_sigmas i m) else None).
End Update.

(** kalman_filters.py:141-160 [calculate_sigma_scaling_factor_and_weights] *)
Definition sigma_scaling_factor (n_states : nat) (kappa : R) : R := sqrt (kappa + INR n_states).
Definition sigma_weights (n_states : nat) (kappa : R) : vec :=
  fun s => match s with
           | O => kappa / (INR n_states + kappa)
           | S _ => / 2 / (INR n_states + kappa)
           end.

(** Row-major reshape of the leading two axes of an array of shape (_, d, _) from
    (a, b * d, _): entry (i, j) comes from position i * d + j. *)
Definition flat (d i j : nat) : nat := (i * d + j)%nat.

(** kalman_filters.py:272-318 [transform_sigma_points]. [func] is the vectorized
    transition function with its coefficients: it maps rows with all factors to
    rows with the next latent factors. *)
Definition transform_sigma_points (n_mixtures n_sigma : nat) (sigma_points : nat -> nat -> nat -> vec)
    (func : vec -> vec) (scaling constants : nat -> vec) : nat -> nat -> nat -> vec :=
  let flat_points k := sigma_points (k / n_sigma / n_mixtures)%nat
                         ((k / n_sigma) mod n_mixtures)%nat (k mod n_sigma)%nat in
  let anchored k f := flat_points k f * scaling O f + constants O f in
  let transformed k := func (anchored k) in
  let unanchored k f := (transformed k f - constants 1%nat f) / scaling 1%nat f in
  fun i m s f => unanchored (flat n_sigma (flat n_mixtures i m) s) f.

Section Predict.
  Variable qr : qr_function.
  Variables (n_obs n_mixtures n_fac n_observed : nat).
  Let n_sigma := (2 * n_fac + 1)%nat.

  (** kalman_filters.py:233-269 [_calculate_sigma_points]. Factors [f < n_fac] are
      latent, the following ones observed. *)
  Definition calculate_sigma_points (states : nat -> nat -> vec) (upper_chols : nat -> nat -> mat)
      (scaling_factor : R) (observed_factors : nat -> vec) : result (nat -> nat -> nat -> vec) :=
    let scaled i m a b := upper_chols i m a b * scaling_factor in
    (* repeat along axis 1, then reshape (258-260) *)
    let repeated i a f := states i (a / n_sigma)%nat f in
    let points0 i m s f := repeated i (flat n_sigma m s) f in
    (* 261-262 *)
    let points1 i m s f :=
      points0 i m s f
      + (if ((1 <=? s) && (s <? n_fac + 1))%nat then scaled i m (s - 1)%nat f else 0) in
    let points2 i m s f :=
      points1 i m s f + (if (n_fac + 1 <=? s)%nat then - scaled i m (s - (n_fac + 1))%nat f else 0) in
    (* repeat along axis 0, then reshape (264-266) *)
    let repeated_obs a o := observed_factors (a / n_sigma)%nat o in
    let observed_part i m s o := repeated_obs (flat n_sigma (flat n_mixtures i m) s) o in
    if (n_obs * n_sigma * n_observed =? n_obs * n_mixtures * n_sigma * n_observed)%nat
    then Ok (fun i m s f => if (f <? n_fac)%nat then points2 i m s f
                            else observed_part i m s (f - n_fac)%nat)
    else Err ShapeError.

  (** kalman_filters.py:224-227: the array that is decomposed. *)
  Definition predict_matrix (weights : vec) (devs : nat -> vec) (shock_sds : vec) : mat :=
    fun a f => if (a <? n_sigma)%nat then devs a f * sqrt (weights a)
               else if (a - n_sigma =? f)%nat then shock_sds f else 0.

  (** kalman_filters.py:163-230 [kalman_predict]. *)
  Definition kalman_predict (states : nat -> nat -> vec) (upper_chols : nat -> nat -> mat)
      (scaling_factor : R) (weights : vec) (func : vec -> vec) (shock_sds : vec)
      (anchoring_scaling anchoring_constants : nat -> vec) (observed_factors : nat -> vec)
    : result ((nat -> nat -> vec) * (nat -> nat -> mat)) :=
    do sigma_points <- calculate_sigma_points states upper_chols scaling_factor observed_factors;
    let transformed :=
      transform_sigma_points n_mixtures n_sigma sigma_points func anchoring_scaling anchoring_constants in
    let predicted_states i m f := rsum n_sigma (fun s => weights s * transformed i m s f) in
    let devs i m s f := transformed i m s f - predicted_states i m f in
    let predicted_covs i m :=
      qr (n_sigma + n_fac)%nat n_fac (predict_matrix weights (devs i m) shock_sds) in
    Ok (predicted_states, predicted_covs).
End Predict.
