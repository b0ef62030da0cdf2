(** Vocabulary for moving parameters between a model and its parts. *)
Require Import String ZArith QArith List.
From Verif Require Import PyBase ModelSpec ParamsIndex Utilities SpecSteps.
Import ListNotations.
Open Scope string_scope.

(** No value is missing. *)
Definition complete (t : pframe) : Prop := forall lb cells, In (lb, cells) (pf_rows t) -> cells "value" <> PNan.

(** [t] is a table for a part of the model: the result of some reductions of the table. *)
Definition table_of_part (md : model_dict) (params t : pframe) : Prop :=
  exists steps md', positive_periods steps /\ do_steps steps md (Some params) = Ok (md', Some t).

(** Two tables with the same rows in the same order and the same values. *)
Definition same_values (t t' : pframe) : Prop :=
  pf_index t' = pf_index t /\
  forall lb cells cells', In (lb, cells) (pf_rows t) -> In (lb, cells') (pf_rows t') -> cells' "value" = cells "value".
