(** Vocabulary for the restrictions that parameters of a reduced model have to meet. *)
Require Import String Arith ZArith QArith List.
From Verif Require Import PyBase ModelSpec SpecModel ProcessModel CheckModel ParamsIndex Constraints SpecConstraints Utilities.
Import ListNotations.
Open Scope string_scope.

(** The value column of a table holds the values [v]. *)
Definition values_are (t : pframe) (v : label -> Q) : Prop :=
  forall lb cells, In (lb, cells) (pf_rows t) -> cells "value" = PNum (v lb).

(** The values satisfy all constraints that are generated for the processed model. *)
Definition meets_constraints (p : processed) (v : label -> Q) : Prop :=
  forall c, In c (get_constraints p) -> satisfies (params_index_of p) v (c_body c).

(** No factor of the model has the transition function log_ces. *)
Definition without_log_ces (md : model_dict) : Prop := forall f, ~ transition_called md f "log_ces".

(** The restrictions that compare parameters of several factors concern the same factors in
    both models: all factors were kept, or no log_ces function is left whose shares add up to
    one; and the factor by which mixture components are ordered was kept, or there is only one
    component. *)
Definition shares_kept (md md' : model_dict) : Prop := latent_of md' = latent_of md \/ without_log_ces md'.
Definition order_kept (md md' : model_dict) : Prop :=
  n_mixtures_of md = 1%nat \/ nth_error (latent_of md') 0 = nth_error (latent_of md) 0.

(** The lower bounds of a table are those of the params template of the model. *)
Definition bound_cell (b : option Q) : pcell := match b with Some q => PNum q | None => PNegInf end.
Definition bounds_are_those_of (p : processed) (t : pframe) : Prop :=
  In "lower_bound" (pf_columns t) /\
  forall lb b cells, In (lb, b) (params_template p) -> In (lb, cells) (pf_rows t) -> cells "lower_bound" = bound_cell b.
