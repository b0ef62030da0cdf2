(** What the words of properties C105 and C106 mean: distributions of the latent factors,
    their moments, and the factors of the next period. *)
Require Import Reals String Arith Bool List.
From Verif Require Import PyBase ModelSpec SpecModel SpecIndex ParamsIndex SpecParse RSum Kalman SpecKalman SpecTransition.
Import ListNotations.
Open Scope R_scope.

(** ** Distributions *)

(** The values of the latent factors, by name. *)
Definition point := string -> R.

(** The expectation of some probability distribution: [integrable] are the functions that
    have an expectation. *)
Definition expectation (integrable : (point -> R) -> Prop) (E : (point -> R) -> R) : Prop :=
  (integrable (fun _ => 1) /\ E (fun _ => 1) = 1) /\
  (forall a b g h, integrable g -> integrable h ->
     integrable (fun x => a * g x + b * h x) /\ E (fun x => a * g x + b * h x) = a * E g + b * E h) /\
  (forall g h, (forall x, g x = h x) -> integrable g -> integrable h /\ E g = E h).

Section Moments.
  Variables (factors : list string) (integrable : (point -> R) -> Prop) (E : (point -> R) -> R).
  Variables (mean : vec) (covariance : mat).

  (** The factors, listed in this order, have this mean and covariance. *)
  Definition first_two_moments : Prop :=
    (forall j f, nth_error factors j = Some f -> integrable (fun x => x f) /\ E (fun x => x f) = mean j) /\
    (forall j f k g, nth_error factors j = Some f -> nth_error factors k = Some g ->
       integrable (fun x => (x f - mean j) * (x g - mean k)) /\
       E (fun x => (x f - mean j) * (x g - mean k)) = covariance j k).

  (** The third central moments exist and are zero, as those of every normal distribution. *)
  Definition no_third_moments : Prop :=
    forall j f k g l h, nth_error factors j = Some f -> nth_error factors k = Some g -> nth_error factors l = Some h ->
      integrable (fun x => (x f - mean j) * (x g - mean k) * (x h - mean l)) /\
      E (fun x => (x f - mean j) * (x g - mean k) * (x h - mean l)) = 0.

  (** The fourth central moments are those of a normal distribution. *)
  Definition normal_fourth_moments : Prop :=
    forall j f k g l h r q, nth_error factors j = Some f -> nth_error factors k = Some g ->
      nth_error factors l = Some h -> nth_error factors r = Some q ->
      integrable (fun x => (x f - mean j) * (x g - mean k) * (x h - mean l) * (x q - mean r)) /\
      E (fun x => (x f - mean j) * (x g - mean k) * (x h - mean l) * (x q - mean r))
      = covariance j k * covariance l r + covariance j l * covariance k r + covariance j r * covariance k l.
End Moments.

(** ** The factors of the next period *)

(** Production functions that are polynomials of at most first resp. second degree. *)
Definition affine_production (s : string) : Prop := s = "linear"%string \/ s = "constant"%string.
Definition quadratic_production (s : string) : Prop :=
  affine_production s \/ s = "translog"%string \/ s = "linear_and_squares"%string.

Section Next.
  Variable nan : R.
  Variable md : model_dict.
  Variable val : label -> R.                      (* the parameters *)
  Variable data : nat -> string -> option R.      (* the data: period, variable *)

  (** The anchored version of a state x of factor f in period t is scale * x + constant. *)
  Definition anchoring_scale (t : nat) (f : string) : R :=
    match find (fun fo => String.eqb f (fst fo)) (outcomes_of md) with
    | Some fo => val (CLoadings, t, (snd fo ++ "_" ++ f)%string, f)
    | None => 1
    end.
  Definition anchoring_constant (t : nat) (f : string) : R :=
    match find (fun fo => String.eqb f (fst fo)) (outcomes_of md) with
    | Some fo => if ignores_constant md then 0 else val (CControls, t, (snd fo ++ "_" ++ f)%string, "constant"%string)
    | None => 0
    end.

  (** The inputs of the production functions: anchored latent and observed factors. *)
  Definition input_value (t : nat) (x : point) (f : string) : R :=
    if in_dec string_dec f (latent_of md) then anchoring_scale t f * x f + anchoring_constant t f
    else to_number nan (data t f).

  (** [y x] is factor f in period t + 1, without shock, if the latent factors in period t
      are x. *)
  Definition next_value (t : nat) (f s : string) (y : point -> R) : Prop :=
    exists z, (forall x, documented (latent_of md ++ observed_of md) (fun name => val (CTransition, t, f, name))
                           (input_value t x) f s (z x)) /\
              forall x, y x = (z x - anchoring_constant (t + 1) f) / anchoring_scale (t + 1) f.
End Next.
