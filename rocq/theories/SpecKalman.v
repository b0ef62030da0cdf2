(** Specification vocabulary for the Kalman filter, independent of the way
    kalman_filters.py computes it: linear algebra, normal densities and the
    textbook formulas. *)
Require Import Reals Arith Bool List.
From Verif Require Import RSum Kalman.
Open Scope R_scope.

(** ** Linear algebra *)

(** P = U' U for an upper triangular factor U of dimension n *)
Definition cov (n : nat) (u : mat) : mat := fun a b => rsum n (fun c => u c a * u c b).

Definition upper_triangular (n : nat) (u : mat) : Prop :=
  forall a b, (a < n)%nat -> (b < n)%nat -> (b < a)%nat -> u a b = 0.

Definition mat_vec (n : nat) (p : mat) (h : vec) : vec := fun a => rsum n (fun b => p a b * h b).
Definition quad (n : nat) (p : mat) (h : vec) : R := rsum n (fun a => h a * mat_vec n p h a).

Definition veq (n : nat) (x y : vec) : Prop := forall a, (a < n)%nat -> x a = y a.
Definition meq (n : nat) (p q : mat) : Prop :=
  forall a b, (a < n)%nat -> (b < n)%nat -> p a b = q a b.

(** r is the triangular factor of some (thin) QR decomposition of the m x n
    matrix a: a = q r with orthonormal columns q and upper triangular r. The signs
    of the rows of r are not determined. *)
Definition is_qr (m n : nat) (a r : mat) : Prop :=
  upper_triangular n r /\
  exists q : mat,
    (forall j k, (j < n)%nat -> (k < n)%nat ->
       rsum m (fun i => q i j * q i k) = if Nat.eq_dec j k then 1 else 0) /\
    (forall i j, (i < m)%nat -> (j < n)%nat -> a i j = rsum n (fun k => q i k * r k j)).

(** An implementation of the QR decomposition: correct for every matrix with at
    least as many rows as columns, and a function of the entries of the matrix. *)
Definition correct_qr (qr : qr_function) : Prop :=
  forall m n a, (n <= m)%nat -> is_qr m n a (qr m n a).
Definition local_qr (qr : qr_function) : Prop :=
  forall m n a b, (forall i j, (i < m)%nat -> (j < n)%nat -> a i j = b i j) ->
                  forall i j, (i < n)%nat -> (j < n)%nat -> qr m n a i j = qr m n b i j.

(** ** The textbook Kalman update for a scalar measurement
    z = h'x + offset + error, error ~ N(0, sd^2) and x ~ N(mean, p). *)
Definition innovation_var (n : nat) (p : mat) (h : vec) (sd : R) : R := quad n p h + sd * sd.
Definition gain (n : nat) (p : mat) (h : vec) (sd : R) : vec :=
  fun a => mat_vec n p h a / innovation_var n p h sd.
Definition conditional_mean (n : nat) (x : vec) (p : mat) (h : vec) (sd offset z : R) : vec :=
  fun a => x a + gain n p h sd a * (z - (dot n x h + offset)).
Definition conditional_cov (n : nat) (p : mat) (h : vec) (sd : R) : mat :=
  fun a b => p a b - gain n p h sd a * rsum n (fun c => h c * p c b).

(** ** Normal densities and mixtures *)
Definition normal_density (mean var z : R) : R :=
  / sqrt (2 * PI * var) * exp (- ((z - mean) * (z - mean)) / (2 * var)).

(** Density of the measurement under mixture element m. *)
Definition measurement_density (n : nat) (x : vec) (p : mat) (h : vec) (sd offset z : R) : R :=
  normal_density (dot n x h + offset) (innovation_var n p h sd) z.

(** ** Sigma points and transitions *)

(** Sigma point s of a normal distribution with mean x and covariance u'u: the
    mean, then the mean plus c times each row of u, then the mean minus c times each
    row of u. *)
Definition sigma_point (n : nat) (x : vec) (u : mat) (c : R) (s : nat) : vec :=
  fun f => if (s =? 0)%nat then x f
           else if (s <=? n)%nat then x f + c * u (s - 1)%nat f
           else x f - c * u (s - (n + 1))%nat f.

(** All factors: n latent ones followed by the observed ones. *)
Definition all_factors (n : nat) (latent observed : vec) : vec :=
  fun f => if (f <? n)%nat then latent f else observed (f - n)%nat.

(** The transition function only reads the factors that exist. *)
Definition local_transition (n_latent n_all : nat) (func : vec -> vec) : Prop :=
  forall v w, veq n_all v w -> veq n_latent (func v) (func w).

(** Anchor with the parameters of the input period, apply the transition function,
    undo the anchoring with the parameters of the output period. *)
Definition anchored_transition (func : vec -> vec) (scale const : nat -> vec) (row : vec) : vec :=
  fun f => (func (fun g => row g * scale O g + const O g) f - const 1%nat f) / scale 1%nat f.

Definition weighted_mean (k : nat) (w : vec) (values : nat -> R) : R :=
  rsum k (fun s => w s * values s).
Definition weighted_scatter (k : nat) (w : vec) (x y : nat -> R) : R :=
  rsum k (fun s => w s * ((x s - weighted_mean k w x) * (y s - weighted_mean k w y))).

(** ** Sequences of updates *)
Record measurement := mk_meas {
  ms_loadings : vec; ms_control_params : vec; ms_sd : R; ms_values : nat -> option R }.

Record filter_state := mk_fstate {
  fs_states : nat -> nat -> vec; fs_chols : nat -> nat -> mat; fs_logw : nat -> vec;
  fs_total : vec (* accumulated log likelihood *) }.

Section Sequences.
  Variable qr : qr_function.
  Variable nan : R.
  Variables (n_mixtures n_states n_controls : nat).
  Variable controls : nat -> nat -> option R.

  (** One call of [kalman_update], adding up the contributions. *)
  Definition update_with (st : filter_state) (ms : measurement) : filter_state :=
    let r := kalman_update qr nan n_mixtures n_states n_controls (fs_states st) (fs_chols st)
               (ms_loadings ms) (ms_control_params ms) (ms_sd ms) (ms_values ms) controls
               (fs_logw st) in
    mk_fstate (up_states r) (up_chols r) (up_logw r) (fun i => fs_total st i + up_loglikes r i).

  Definition update_all (st : filter_state) (l : list measurement) : filter_state :=
    fold_left update_with l st.

  (** Two filter states of individual i describe the same distribution and have
      accumulated the same log likelihood. *)
  Definition same_state (i : nat) (s t : filter_state) : Prop :=
    (forall m, (m < n_mixtures)%nat ->
       veq n_states (fs_states s i m) (fs_states t i m) /\
       meq n_states (cov n_states (fs_chols s i m)) (cov n_states (fs_chols t i m)) /\
       fs_logw s i m = fs_logw t i m) /\
    fs_total s i = fs_total t i.
End Sequences.
