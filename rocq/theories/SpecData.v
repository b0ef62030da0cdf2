(** What the words of properties C22 - C29 mean for a data set. *)
Require Import String ZArith Bool List Sorted.
From Verif Require Import PyBase ModelSpec ProcessModel CheckModel SpecModel SpecParse ProcessData.
Import ListNotations.
Open Scope string_scope.
Open Scope list_scope.
Open Scope nat_scope.

(** [values] lists the integers with property [P] once each, in ascending order. *)
Definition ascending (values : list Z) (P : Z -> Prop) : Prop :=
  StronglySorted Z.lt values /\ forall z, In z values <-> P z.

Section SpecData.
  Variable V : Type.
  Variable one : V.

  (** Invariant of a pandas MultiIndex: the values of the rows are in the levels. *)
  Definition wf_frame (df : frame V) : Prop :=
    forall r, In r (fr_rows df) ->
      In (dr_id r) (fr_id_level df) /\ In (dr_period r) (fr_period_level df).

  (** No two observations of the same individual in the same period. *)
  Definition unique_index (df : frame V) : Prop :=
    NoDup (map (fun r => (dr_id r, dr_period r)) (fr_rows df)).

  (** The individuals of the data set, and the periods its index knows. *)
  Definition ids_of (df : frame V) (ids : list Z) : Prop :=
    ascending ids (fun z => exists r, In r (fr_rows df) /\ dr_id r = z).
  Definition levels_of (df : frame V) (lv : list Z) : Prop :=
    ascending lv (fun z => In z (fr_period_level df)).
  Definition periods_of (df : frame V) (lv : list Z) : Prop :=
    ascending lv (fun z => exists r, In r (fr_rows df) /\ dr_period r = z).

  (** The index has no period levels that no observation uses. *)
  Definition no_unused_periods (df : frame V) : Prop :=
    forall z, In z (fr_period_level df) -> exists r, In r (fr_rows df) /\ dr_period r = z.

  (** Value of variable [x] of individual [id] in the [t]-th of the periods [lv]:
      missing if there is no such observation. *)
  Definition raw_cells (df : frame V) (lv : list Z) (id : Z) (t : nat) : string -> option V :=
    match nth_error lv t with
    | None => fun _ => None
    | Some z =>
        match find (fun r => Z.eqb (dr_id r) id && Z.eqb (dr_period r) z) (fr_rows df) with
        | Some r => dr_cells r
        | None => fun _ => None
        end
    end.

  (** Names of the copies of the anchoring outcomes: outcome_factor. *)
  Definition copy_name (fo : string * string) : string := (snd fo ++ "_" ++ fst fo)%string.

  (** The outcomes are genuine variables and their copies are told apart by name. *)
  Definition clear_outcomes (md : model_dict) : Prop :=
    NoDup (map copy_name (outcomes_of md)) /\
    forall fo, In fo (outcomes_of md) ->
      snd fo <> "constant" /\ ~ In (snd fo) (map copy_name (outcomes_of md)).

  (** The value a model variable is supposed to have: the outcome for an anchoring
      equation, one for the constant and the value in the data set otherwise. *)
  Definition data_value (md : model_dict) (cells : string -> option V) (x : string) : option V :=
    match find (fun fo => String.eqb x (copy_name fo)) (outcomes_of md) with
    | Some fo => cells (snd fo)
    | None => if String.eqb x "constant" then Some one else cells x
    end.

  (** The value of variable [x] for individual [id] in model period [t]. *)
  Definition value (md : model_dict) (df : frame V) (lv : list Z) (id : Z) (t : nat) (x : string)
    : option V := data_value md (raw_cells df lv id t) x.

  (** The variable can be computed from the columns of the data set. *)
  Definition available (md : model_dict) (df : frame V) (x : string) : Prop :=
    In x (fr_columns df) \/ x = "constant" \/ In x (map copy_name (outcomes_of md)).

  (** Some control is missing although some variable of the period is observed. *)
  Definition discarded (md : model_dict) (n : nat) (df : frame V) (lv : list Z) (id : Z) (t : nat)
    : Prop :=
    (exists c, In c (controls_of md) /\ value md df lv id t c = None) /\
    (exists v, In (t, v) (equations md n) /\ value md df lv id t v <> None).

  (** The problems the data check is supposed to find. *)
  Inductive has_problem (md : model_dict) (n : nat) (df : frame V) (ids lv : list Z)
      (estimation : bool) (t : nat) : string -> data_problem -> Prop :=
  | control_missing c :
      In c ("constant" :: controls_of md) ->
      ~ available md df c \/ (forall id, In id ids -> value md df lv id t c = None) ->
      has_problem md n df ids lv estimation t c VariableMissing
  | measurement_missing v :
      estimation = true -> In (t, v) (equations md n) -> ~ available md df v ->
      has_problem md n df ids lv estimation t v VariableMissing
  | measurement_constant v x :
      estimation = true -> In (t, v) (equations md n) -> available md df v ->
      (exists id, In id ids /\ value md df lv id t v = Some x) ->
      (forall id y, In id ids -> value md df lv id t v = Some y -> y = x) ->
      has_problem md n df ids lv estimation t v NoVariance
  | observed_absent f :
      In f (observed_of md) -> ~ available md df f ->
      has_problem md n df ids lv estimation t f VariableMissing
  | observed_incomplete f id :
      In f (observed_of md) -> available md df f -> In id ids -> value md df lv id t f = None ->
      has_problem md n df ids lv estimation t f HasMissings.

  (** The data set and model a property speaks about: [md] is accepted and has [n]
      periods; [ids] are the individuals and [lv] the periods of the data set. *)
  Definition data_setting (md : model_dict) (p : processed) (n : nat) (df : frame V)
      (ids lv : list Z) : Prop :=
    wf_dicts md /\ process_model md = Ok p /\ has_n_periods md n /\ clear_outcomes md /\
    wf_frame df /\ ids_of df ids /\ levels_of df lv.

  (** Entry of a three dimensional array. *)
  Definition entry3 {A} (m : list (list (list A))) (i j k : nat) (x : A) : Prop :=
    exists sheet, nth_error m i = Some sheet /\ entry sheet j k x.
End SpecData.

Arguments wf_frame {V}. Arguments unique_index {V}. Arguments ids_of {V}. Arguments levels_of {V}.
Arguments periods_of {V}. Arguments no_unused_periods {V}. Arguments raw_cells {V}.
Arguments data_value {V}. Arguments value {V}. Arguments available {V}. Arguments discarded {V}.
Arguments has_problem {V}. Arguments data_setting {V}.
