(** Which parameters a model has. Refers to the specification and the type of
    labels only. *)
Require Import String Ascii Arith ZArith QArith List.
From Verif Require Import PyBase ModelSpec SpecModel StringFacts ParamsIndex.
Import ListNotations.
Open Scope string_scope.
Open Scope list_scope.
Open Scope nat_scope.

(** [v] is the variable of a measurement or anchoring equation of period [p]
    that involves factor [f] / some factor. *)
Definition involves (md : model_dict) (p : nat) (f v : string) : Prop :=
  measures md p f v \/ anchors md p f v.
Definition is_equation (md : model_dict) (p : nat) (v : string) : Prop :=
  exists f, involves md p f v.

(** Unordered pairs, in the order of the list. *)
Fixpoint pairs_in_order (l : list string) : list (string * string) :=
  match l with
  | [] => []
  | x :: l' => map (fun y => (x, y)) l' ++ pairs_in_order l'
  end.

(** Names of the parameters of the transition functions. *)
Definition transition_parameters (all : list string) (t : trans_spec) : list string :=
  match t with
  | TStr "linear" => all ++ ["constant"]
  | TStr "translog" | TStr "robust_translog" =>
      all ++ map (fun f => f ++ " ** 2")%string all
          ++ map (fun fg => fst fg ++ " * " ++ snd fg)%string (pairs_in_order all)
          ++ ["constant"]
  | TStr "linear_and_squares" => all ++ map (fun f => f ++ " ** 2")%string all ++ ["constant"]
  | TStr "log_ces" => all ++ ["phi"]
  | TStr "log_ces_general" => all ++ map (fun f => "sigma_" ++ f)%string all ++ ["tfp"]
  | TStr _ => []
  | TFun _ (Some names) => names
  | TFun _ None => []
  | TOther => []
  end.

(** The parameters of a model. *)
Inductive is_param (md : model_dict) : label -> Prop :=
| par_control p v c :
    is_equation md p v -> c = "constant" \/ In c (controls_of md) ->
    is_param md (CControls, p, v, c)
| par_loading p v f :
    involves md p f v -> In f (latent_of md) -> is_param md (CLoadings, p, v, f)
| par_meas_sd p v : is_equation md p v -> is_param md (CMeasSds, p, v, "-")
| par_shock_sd p f n :
    has_n_periods md n -> p + 1 < n -> In f (latent_of md) -> is_param md (CShockSds, p, f, "-")
| par_initial_mean e f :
    e < n_mixtures_of md -> In f (latent_of md) ->
    is_param md (CInitStates, 0, ("mixture_" ++ str_nat e)%string, f)
| par_mixture_weight e :
    e < n_mixtures_of md -> is_param md (CMixWeights, 0, ("mixture_" ++ str_nat e)%string, "-")
| par_initial_chol e row col frow fcol :
    e < n_mixtures_of md -> nth_error (latent_of md) row = Some frow ->
    nth_error (latent_of md) col = Some fcol -> col <= row ->
    is_param md (CInitChol, 0, ("mixture_" ++ str_nat e)%string, (frow ++ "-" ++ fcol)%string)
| par_transition p n f fs name :
    has_n_periods md n -> p + 1 < n -> In (f, fs) (md_factors md) ->
    In name (transition_parameters (latent_of md ++ observed_of md) (fs_transition fs)) ->
    is_param md (CTransition, p, f, name).

(** Documented order of the categories. *)
Definition cat_rank (c : cat) : nat :=
  match c with
  | CControls => 0 | CLoadings => 1 | CMeasSds => 2 | CShockSds => 3
  | CInitStates => 4 | CMixWeights => 5 | CInitChol => 6 | CTransition => 7
  end.

(** Names that cannot be confused: no dashes in names of latent factors (they
    separate the two factors of a covariance) and no stars in names of factors;
    no factor is called like a parameter; controls are distinct. *)
Definition good_names (md : model_dict) : Prop :=
  NoDup (latent_of md ++ observed_of md) /\
  (forall f, In f (latent_of md) -> without_char "-" f) /\
  (forall f, In f (latent_of md ++ observed_of md) ->
     without_char "*" f /\ ~ In f ["constant"; "phi"; "tfp"] /\
     forall g, f <> ("sigma_" ++ g)%string) /\
  NoDup (controls_of md) /\ ~ In "constant" (controls_of md) /\
  (forall f fs n names, In (f, fs) (md_factors md) ->
     fs_transition fs = TFun n (Some names) -> NoDup names).
