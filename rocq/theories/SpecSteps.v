(** Vocabulary for sequences of reductions of a model. *)
Require Import String ZArith List.
From Verif Require Import PyBase ModelSpec ParamsIndex Utilities.
Import ListNotations.

(** The functions of utilities.py that make a model smaller, with their arguments. *)
Inductive reduction_step :=
| RemoveFactors (factors : names)
| RemoveMeasurements (measurements : names)
| RemoveControls (controls : names)
| ReducePeriods (new_n_periods : nat)
| TranslogToLinear.

(** One call. *)
Definition do_step (s : reduction_step) (md : model_dict) (params : option pframe) : result (model_dict * option pframe) :=
  match s with
  | RemoveFactors factors => remove_factors factors md params
  | RemoveMeasurements measurements => remove_measurements measurements md params
  | RemoveControls controls => remove_controls controls md params
  | ReducePeriods k => reduce_n_periods md (Z.of_nat k) params
  | TranslogToLinear => switch_translog_to_linear md params
  end.

(** One call after the other, each with the results of the one before. *)
Fixpoint do_steps (steps : list reduction_step) (md : model_dict) (params : option pframe) : result (model_dict * option pframe) :=
  match steps with
  | [] => Ok (md, params)
  | s :: rest => do r <- do_step s md params; do_steps rest (fst r) (snd r)
  end.

(** The number of periods is reduced to a positive number. *)
Definition positive_periods (steps : list reduction_step) : Prop := forall k, In (ReducePeriods k) steps -> 1 <= k.

(** Two tables of parameters with the same columns, the same rows in the same order and the
    same cells. *)
Definition same_table (t t' : pframe) : Prop :=
  pf_columns t' = pf_columns t /\ pf_index t' = pf_index t /\
  forall lb cells cells' column, In (lb, cells) (pf_rows t) -> In (lb, cells') (pf_rows t') ->
    In column (pf_columns t) -> cells' column = cells column.

(** Both removals in one. *)
Definition both (a b : names) : names := Many (as_list a ++ as_list b).

(** [merged s s' once]: the call [once] asks for both reductions at the same time. *)
Inductive merged : reduction_step -> reduction_step -> reduction_step -> Prop :=
| merged_factors a b : merged (RemoveFactors a) (RemoveFactors b) (RemoveFactors (both a b))
| merged_measurements a b : merged (RemoveMeasurements a) (RemoveMeasurements b) (RemoveMeasurements (both a b))
| merged_controls a b : merged (RemoveControls a) (RemoveControls b) (RemoveControls (both a b))
| merged_periods k l : merged (ReducePeriods k) (ReducePeriods l) (ReducePeriods (Nat.min k l))
| merged_linear : merged TranslogToLinear TranslogToLinear TranslogToLinear.

(** No controls are removed. *)
Definition keeps_controls (steps : list reduction_step) : Prop := forall a, ~ In (RemoveControls a) steps.
