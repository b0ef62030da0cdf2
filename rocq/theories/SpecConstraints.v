(** Meaning of constraints and bounds, and the restrictions the documentation
    describes, in terms of values of labelled parameters. *)
Require Import String Ascii Arith ZArith QArith List.
From Verif Require Import PyBase ModelSpec SpecModel SpecIndex SpecParse ParamsIndex Constraints.
Import ListNotations.
Open Scope string_scope.
Open Scope list_scope.
Open Scope nat_scope.

Definition lb_is_cat (c : cat) (lb : label) : bool := cat_rank (lb_cat lb) =? cat_rank c.

(** The labels a selector selects from an index, in the order of the selection.
    (estimagic: [params.loc[loc]].) *)
Definition selected (idx : list label) (s : selector) : list label :=
  match s with
  | SCat c => filter (lb_is_cat c) idx
  | SCatPeriod c t => filter (fun lb => andb (lb_is_cat c lb) (lb_period lb =? t)) idx
  | SLabel lb => [lb]
  | SLabels lbs => lbs
  end.

Definition selectors (c : constr_body) : list selector :=
  match c with
  | CFixed s _ | CProbability s | CIncreasing s => [s]
  | CPairwiseEquality ss => ss
  end.

(** All selectors of a constraint select labels of the index, and at least one. *)
Definition selects_existing (idx : list label) (c : constr_body) : Prop :=
  forall s, In s (selectors c) -> selected idx s <> [] /\ incl (selected idx s) idx.

Definition is_probability (qs : list Q) : Prop :=
  Forall (fun q => 0 <= q)%Q qs /\ (fold_right Qplus 0%Q qs == 1)%Q.

Fixpoint increasing (qs : list Q) : Prop :=
  match qs with
  | x :: ((y :: _) as qs') => (x <= y)%Q /\ increasing qs'
  | _ => True
  end.

(** [v], the value of each parameter, satisfies a constraint. *)
Definition satisfies (idx : list label) (v : label -> Q) (c : constr_body) : Prop :=
  match c with
  | CFixed s (VScalar q) => forall lb, In lb (selected idx s) -> (v lb == q)%Q
  | CFixed s (VList qs) => Forall2 (fun lb q => v lb == q)%Q (selected idx s) qs
  | CProbability s => is_probability (map v (selected idx s))
  | CPairwiseEquality ss => forall s1 s2, In s1 ss -> In s2 ss ->
      Forall2 (fun a b => v a == v b)%Q (selected idx s1) (selected idx s2)
  | CIncreasing s => increasing (map v (selected idx s))
  end.

(** ** Kinds of constraints, told apart by their form *)

Definition is_normalization (c : constr_body) : Prop :=
  exists lbs qs, c = CFixed (SLabels lbs) (VList qs).
Definition is_stage_constraint (c : constr_body) : Prop := exists ss, c = CPairwiseEquality ss.
Definition is_anchoring_constraint (c : constr_body) : Prop :=
  exists lbs q, c = CFixed (SLabels lbs) (VScalar q).
Definition is_mixture_constraint (c : constr_body) : Prop :=
  (exists w, c = CFixed (SCat CMixWeights) w) \/ c = CProbability (SCat CMixWeights) \/
  (exists s, c = CIncreasing s).

(** ** Restrictions *)

Section Restrictions.
  Variables (md : model_dict) (n : nat) (v : label -> Q).

  Definition normalizations_hold : Prop :=
    (forall t f m q, normalized_loading md t f m q -> (v (CLoadings, t, m, f) == q)%Q) /\
    (forall t f m q, normalized_intercept md t f m q ->
       (v (CControls, t, m, "constant") == q)%Q).

  Definition weight (e : nat) : Q := v (CMixWeights, 0, mixture_name e, "-").

  Definition mixture_weights_hold : Prop :=
    (n_mixtures_of md = 1 -> (weight 0 == 1)%Q) /\
    (n_mixtures_of md <> 1 -> is_probability (map weight (seq 0 (n_mixtures_of md)))).

  Definition mixtures_ordered : Prop :=
    forall e f, e + 1 < n_mixtures_of md -> nth_error (latent_of md) 0 = Some f ->
      (v (CInitStates, 0%nat, mixture_name e, f)
       <= v (CInitStates, 0%nat, mixture_name (e + 1), f))%Q.

  (** Transitions [t] and [t'] belong to the same development stage. *)
  Definition same_stage (t t' : nat) : Prop :=
    exists s, nth_error (stagemap_of md n) t = Some s /\ nth_error (stagemap_of md n) t' = Some s.

  Definition stages_hold : Prop :=
    forall t t', same_stage t t' ->
      (forall f fs name, In (f, fs) (md_factors md) ->
         In name (transition_parameters (latent_of md ++ observed_of md) (fs_transition fs)) ->
         (v (CTransition, t, f, name) == v (CTransition, t', f, name))%Q) /\
      (forall f, In f (latent_of md) ->
         (v (CShockSds, t, f, "-") == v (CShockSds, t', f, "-"))%Q).

  (** The name of a transition function: the string itself or the name of the
      user supplied function. *)
  Definition transition_called (f name : string) : Prop :=
    exists fs, In (f, fs) (md_factors md) /\
      (fs_transition fs = TStr name \/ exists ps, fs_transition fs = TFun (Some name) ps).

  Definition constant_factors_hold : Prop :=
    forall t f, t + 1 < n -> transition_called f "constant" ->
      (v (CShockSds, t, f, "-") == 0)%Q.

  Definition log_ces_holds : Prop :=
    forall t f, t + 1 < n -> transition_called f "log_ces" ->
      is_probability (map (fun g => v (CTransition, t, f, g)) (latent_of md ++ observed_of md)).

  Definition anch_flag (get : anchoring_spec -> option bool) : bool :=
    match md_anchoring md with
    | Some a => match get a with Some b => b | None => false end
    | None => false
    end.

  Definition anchoring_holds : Prop :=
    (anch_flag as_free_constant = false ->
       forall t f m, anchors md t f m -> (v (CControls, t, m, "constant") == 0)%Q) /\
    (anch_flag as_free_controls = false ->
       forall t f m c, anchors md t f m -> In c (controls_of md) -> c <> "constant" ->
         (v (CControls, t, m, c) == 0)%Q) /\
    (anch_flag as_free_loadings = false ->
       forall t f m, anchors md t f m -> (v (CLoadings, t, m, f) == 1)%Q).
End Restrictions.

(** ** Bounds *)

Definition bounds_distance_of (md : model_dict) : Q :=
  match md_options md with
  | Some o =>
      match os_robust_bounds o with
      | Some false => 0%Q
      | _ => match os_bounds_distance o with Some q => q | None => (1 # 1000)%Q end
      end
  | None => (1 # 1000)%Q
  end.

(** Standard deviations and the diagonal of the initial Cholesky factors. *)
Definition has_lower_bound (md : model_dict) (lb : label) : Prop :=
  lb_cat lb = CMeasSds \/ lb_cat lb = CShockSds \/
  (lb_cat lb = CInitChol /\ exists f, In f (latent_of md) /\ lb_name2 lb = (f ++ "-" ++ f)%string).

(** ** Hypotheses about specifications *)

(** At least one factor has transition parameters, or no two transitions share a
    stage. *)
Definition equalizes_something (md : model_dict) (n : nat) : Prop :=
  (exists f fs name, In (f, fs) (md_factors md) /\
     In name (transition_parameters (latent_of md ++ observed_of md) (fs_transition fs))) \/
  (forall t t', same_stage md n t t' -> t = t').

(** Anchored factors are latent factors. *)
Definition anchored_latent (md : model_dict) : Prop :=
  forall f o, anchored md f o -> In f (latent_of md).

(** No user supplied transition function is called log_ces. *)
Definition no_custom_log_ces (md : model_dict) : Prop :=
  forall f fs ps, In (f, fs) (md_factors md) -> fs_transition fs <> TFun (Some "log_ces") ps.

(** [v] satisfies the lower bounds of a params template. *)
Definition within_bounds (template : list (label * option Q)) (v : label -> Q) : Prop :=
  forall lb b, In (lb, Some b) template -> (b <= v lb)%Q.

(** Normalizations do not contradict each other. *)
Definition consistent_normalizations (md : model_dict) : Prop :=
  (forall t f m q q', normalized_loading md t f m q -> normalized_loading md t f m q' ->
     (q == q')%Q) /\
  (forall t f f' m q q', normalized_intercept md t f m q -> normalized_intercept md t f' m q' ->
     (q == q')%Q).
