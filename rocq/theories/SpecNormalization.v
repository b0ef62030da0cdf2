(** What the words of property C111 mean: how a change of the scale and the location of the
    latent factors is absorbed by the coefficients of the production functions. *)
Require Import Reals String Arith Bool List.
From Verif Require Import PyBase ModelSpec SpecModel SpecIndex ParamsIndex SpecTransition SpecParse.
Import ListNotations.
Open Scope R_scope.

(** Linear, linear with squares, or translog. *)
Definition quadratic_name (s : string) : Prop :=
  s = "linear"%string \/ s = "linear_and_squares"%string \/ s = "translog"%string.

Section Coefficients.
  (** All factors. A factor whose value on the new scale is X has the value
      [slope] X - [offset] on the old scale. The result is multiplied by [scale] and shifted
      by [shift]. *)
  Variables (all : list string) (slope offset : string -> R) (scale shift : R).
  (** The production function and its coefficients by name. *)
  Variables (s : string) (beta : string -> R).

  Definition square (g : string) : R := if String.eqb s "linear" then 0 else beta (g ++ " ** 2")%string.
  Definition interaction (gh : string * string) : R :=
    if String.eqb s "translog" then beta (fst gh ++ " * " ++ snd gh)%string else 0.

  (** The sum of the offsets of the factors that interact with g, weighted with the
      coefficients of the interactions. *)
  Definition interacting (g : string) : R :=
    sum_of (pairs_in_order all) (fun ab => interaction ab *
      ((if String.eqb (fst ab) g then offset (snd ab) else 0) + (if String.eqb (snd ab) g then offset (fst ab) else 0))).

  Definition new_linear (g : string) : R := scale * slope g * (beta g - 2 * square g * offset g - interacting g).
  Definition new_square (g : string) : R := scale * (slope g * slope g) * square g.
  Definition new_interaction (gh : string * string) : R := scale * (slope (fst gh) * slope (snd gh)) * interaction gh.
  Definition new_constant : R :=
    scale * (beta "constant"%string - sum_of all (fun g => beta g * offset g)
             + sum_of all (fun g => square g * (offset g * offset g))
             + sum_of (pairs_in_order all) (fun ab => interaction ab * (offset (fst ab) * offset (snd ab)))) + shift.

  (** The coefficients [beta'] are those on the new scale. *)
  Definition adapted_coefficients (beta' : string -> R) : Prop :=
    (forall g, In g all -> beta' g = new_linear g) /\
    (s <> "linear"%string -> forall g, In g all -> beta' (g ++ " ** 2")%string = new_square g) /\
    (s = "translog"%string -> forall gh, In gh (pairs_in_order all) ->
       beta' (fst gh ++ " * " ++ snd gh)%string = new_interaction gh) /\
    beta' "constant"%string = new_constant.

  (** General CES functions: the scale of the factors changes their exponents, their location changes the
      shares. *)
  Definition adapted_general (beta' : string -> R) : Prop :=
    shares all beta /\ beta "tfp"%string <> 0 /\ beta' "tfp"%string = scale * beta "tfp"%string /\
    (forall g, In g all -> beta' ("sigma_" ++ g)%string = slope g * beta ("sigma_" ++ g)%string) /\
    (forall g, In g all ->
       beta' g = beta g * exp (shift / (scale * beta "tfp"%string) - beta ("sigma_" ++ g)%string * offset g)).

  (** CES functions with a common exponent: all factors must be on the same scale. *)
  Definition adapted_ces (beta' : string -> R) : Prop :=
    shares all beta /\ beta "phi"%string <> 0 /\ (forall g, In g all -> slope g = / scale) /\
    beta' "phi"%string = beta "phi"%string / scale /\
    (forall g, In g all -> beta' g = beta g * exp (beta "phi"%string * (shift / scale - offset g))).

  Definition adapted_production (beta' : string -> R) : Prop :=
    (quadratic_name s /\ adapted_coefficients beta') \/
    (s = "log_ces_general"%string /\ adapted_general beta') \/
    (s = "log_ces"%string /\ adapted_ces beta').
End Coefficients.

(** The parameters of the transition functions in [val'] are those of [val] if the latent
    factor f of period t is measured as [scale t f] times the factor plus [shift t f].
    Observed factors are not rescaled. A factor that is constant over time keeps its scale
    and location. *)
Definition adapted_productions (md : model_dict) (n : nat) (scale shift : nat -> string -> R) (val val' : label -> R) : Prop :=
  let latent g := existsb (String.eqb g) (latent_of md) in
  forall t f fs, (t + 1 < n)%nat -> In (f, fs) (md_factors md) ->
    (fs_transition fs = TStr "constant" /\ scale (t + 1)%nat f = scale t f /\ shift (t + 1)%nat f = shift t f) \/
    exists s, fs_transition fs = TStr s /\
      adapted_production (latent_of md ++ observed_of md)
        (fun g => if latent g then / scale t g else 1) (fun g => if latent g then shift t g / scale t g else 0)
        (scale (t + 1)%nat f) (shift (t + 1)%nat f) s
        (fun name => val (CTransition, t, f, name)) (fun name => val' (CTransition, t, f, name)).

(** All factors have linear, linear with squares, translog or general CES production functions or are
    constant over time. *)
Definition flexible_model (md : model_dict) : Prop :=
  outcomes_of md = [] /\
  forall f fs, In (f, fs) (md_factors md) ->
    fs_transition fs = TStr "constant" \/
    exists s, fs_transition fs = TStr s /\ (quadratic_name s \/ s = "log_ces_general"%string).

(** The general CES functions are not constant and have proper shares. *)
Definition proper_productions (md : model_dict) (n : nat) (val : label -> R) : Prop :=
  forall t f fs, (t + 1 < n)%nat -> In (f, fs) (md_factors md) -> fs_transition fs = TStr "log_ces_general" ->
    shares (latent_of md ++ observed_of md) (fun name => val (CTransition, t, f, name)) /\
    val (CTransition, t, f, "tfp"%string) <> 0.

(** The factor is normalized in this period: in all periods if it evolves, and in the
    first period if it is constant over time. *)
Definition normalized_in (md : model_dict) (t : nat) (f : string) : Prop :=
  t = O \/ forall fs, In (f, fs) (md_factors md) -> fs_transition fs <> TStr "constant".

(** [var t f] measures f, and no other latent factor, in period t, with a positive loading. *)
Definition dedicated (md : model_dict) (n : nat) (val : label -> R) (var : nat -> string -> string) : Prop :=
  forall t f, (t < n)%nat -> In f (latent_of md) -> normalized_in md t f ->
    In (t, var t f) (equations md n) /\ 0 < val (CLoadings, t, var t f, f) /\
    forall g, In g (latent_of md) -> g <> f -> val (CLoadings, t, var t f, g) = 0.

(** Its loading is one and its constant is zero. *)
Definition normalized (md : model_dict) (n : nat) (val : label -> R) (var : nat -> string -> string) : Prop :=
  forall t f, (t < n)%nat -> In f (latent_of md) -> normalized_in md t f ->
    val (CLoadings, t, var t f, f) = 1 /\ val (CControls, t, var t f, "constant"%string) = 0.

(** The signs of the standard deviations and of the entries of the initial Cholesky factors are
    the same, so are the mixture weights; the initial means of the mixture elements are in the same
    order; loadings that are zero stay zero. *)
Definition same_restrictions (md : model_dict) (n : nat) (val val' : label -> R) : Prop :=
  (forall t v, val' (CMeasSds, t, v, "-"%string) = val (CMeasSds, t, v, "-"%string)) /\
  (forall e, val' (CMixWeights, O, mixture_name e, "-"%string) = val (CMixWeights, O, mixture_name e, "-"%string)) /\
  (forall t f, (t + 1 < n)%nat -> In f (latent_of md) -> (0 < val' (CShockSds, t, f, "-"%string) <-> 0 < val (CShockSds, t, f, "-"%string))) /\
  (forall t f, (t + 1 < n)%nat -> In f (latent_of md) -> (val' (CShockSds, t, f, "-"%string) = 0 <-> val (CShockSds, t, f, "-"%string) = 0)) /\
  (forall e f g, In f (latent_of md) -> In g (latent_of md) ->
     (0 < val' (CInitChol, O, mixture_name e, cov_name f g) <-> 0 < val (CInitChol, O, mixture_name e, cov_name f g))) /\
  (forall d e f, (d < n_mixtures_of md)%nat -> (e < n_mixtures_of md)%nat -> In f (latent_of md) ->
     (val' (CInitStates, O, mixture_name d, f) <= val' (CInitStates, O, mixture_name e, f) <->
      val (CInitStates, O, mixture_name d, f) <= val (CInitStates, O, mixture_name e, f))) /\
  (forall t v f, In (t, v) (equations md n) -> In f (latent_of md) ->
     (val' (CLoadings, t, v, f) = 0 <-> val (CLoadings, t, v, f) = 0)).
