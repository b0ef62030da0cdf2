(** Vocabulary for the renaming of factors, measurements, controls and outcomes. *)
Require Import String ZArith List.
From Verif Require Import PyBase ModelSpec SpecModel ProcessData SpecData.
Import ListNotations.
Open Scope string_scope.
Open Scope list_scope.

Section Renaming.
  Variable rho : string -> string.

  (** The same dictionary with other keys. *)
  Definition rename_keys {A} (d : dict A) : dict A := map (fun kv => (rho (fst kv), snd kv)) d.

  Definition rename_normalization (ns : norm_spec) : norm_spec :=
    mk_norm (option_map (map rename_keys) (ns_loadings ns)) (option_map (map rename_keys) (ns_intercepts ns)).

  (** Measurements and normalizations of a factor under their new names; its transition
      function is the same. *)
  Definition rename_factor (fs : factor_spec) : factor_spec :=
    mk_factor (map (map rho) (fs_measurements fs)) (fs_transition fs) (option_map rename_normalization (fs_norm fs)).

  Definition rename_outcome (fo : string * string) : string * string := (rho (fst fo), rho (snd fo)).

  Definition rename_anchoring (a : anchoring_spec) : anchoring_spec :=
    mk_anch (option_map (map rename_outcome) (as_outcomes a)) (as_free_controls a) (as_free_constant a)
      (as_free_loadings a) (as_ignore_constant a).

  (** The same model in which every factor, measurement, control and outcome [x] is called
      [rho x]. *)
  Definition rename_model (md : model_dict) : model_dict :=
    mk_md (map (fun ffs => (rho (fst ffs), rename_factor (snd ffs))) (md_factors md))
      (option_map (map rho) (md_observed md)) (option_map (map rho) (md_controls md)) (md_stagemap md)
      (option_map rename_anchoring (md_anchoring md)) (md_options md).

  (** [df'] has the same rows as [df]; what is in column [x] of [df] is in column [rho x]
      of [df']. *)
  Definition renamed_data {V} (df df' : frame V) : Prop :=
    fr_columns df' = map rho (fr_columns df) /\ fr_id_level df' = fr_id_level df /\ fr_period_level df' = fr_period_level df /\
    Forall2 (fun r r' => dr_id r' = dr_id r /\ dr_period r' = dr_period r /\
                         forall x, dr_cells r' (rho x) = dr_cells r x) (fr_rows df) (fr_rows df').
End Renaming.

(** A renaming tells apart what had different names; the constant keeps its name. *)
Definition is_renaming (rho : string -> string) : Prop :=
  (forall x y, rho x = rho y -> x = y) /\ rho "constant" = "constant".

(** No control and no observed factor is called like the column that anchoring creates. *)
Definition own_columns (md : model_dict) : Prop :=
  forall x, In x (controls_of md ++ observed_of md) -> ~ In x (map copy_name (outcomes_of md)).
