(** What the words of properties C64 and C86 - C90 mean. *)
Require Import Reals String Arith ZArith Bool List.
From Verif Require Import PyBase ModelSpec SpecModel ProcessData DebugData SpecDebug TransitionPlots SpecPlots DistributionPlots.
Import ListNotations.
Open Scope string_scope.
Open Scope list_scope.
Open Scope nat_scope.

(** ** The states of a period *)

(** The values of a factor in period [t], row by row; [None] is a missing value. *)
Definition values_in (t : nat) (states : table) (factor : string) : list (option R) :=
  map number_of (cells_of_period states t factor).

(** The tables of states by scenario: the name is that of the dictionary or the position
    in the list. *)
Definition tables_of (states : states_arg) : list (scenario * table) :=
  match states with
  | OneTable st => [(ScNone, st)]
  | TableDict d => map (fun kv => (ScName (fst kv), snd kv)) d
  | TableList l => map (fun it => (ScNumber (fst it), snd it)) (combine (seq 0 (length l)) l)
  end.

(** A table has rows of period [t]. *)
Definition has_rows (t : nat) (states : table) : bool :=
  existsb (fun row => match row "period" with CInt s => s =? t | _ => false end) (tb_rows states).

(** The scenarios that can be shown for a period. *)
Definition scenarios_in (t : nat) (states : states_arg) : list (scenario * table) :=
  filter (fun st => has_rows t (snd st)) (tables_of states).

(** The states are complete for a list of factors: there is a table, each has the columns,
    names of scenarios are unique. *)
Definition states_for (states : states_arg) (factors : list string) : Prop :=
  tables_of states <> [] /\ NoDup (map fst (tables_of states)) /\
  forall name st, In (name, st) (tables_of states) ->
    forall column, In column ("period" :: factors) -> In column (tb_columns st).

(** The factors that the user asks for: by default the latent factors. *)
Definition asked_for (md : model_dict) (factors : option (list string)) (observed_factors : bool)
    (fs : list string) : Prop :=
  match factors with
  | Some l => fs = l
  | None => fs = if observed_factors then latent_of md ++ observed_of md else latent_of md
  end.

(** ** Densities on grids *)

(** The limits of an axis are the smallest and the largest number. *)
Definition smallest_largest (xs : list R) (lo hi : R) : Prop :=
  In lo xs /\ In hi xs /\ forall x, In x xs -> (lo <= x <= hi)%R.

(** [n] equally spaced numbers from the smallest to the largest. *)
Definition covers (xs : list R) (n : nat) (l : list R) : Prop :=
  exists lo hi, smallest_largest xs lo hi /\ length l = n /\
    forall k x, nth_error l k = Some x -> spaced lo hi n k x.

(** The number in row [i] and column [j] of a matrix. *)
Definition at_position (m : list (list R)) (i j : nat) (v : R) : Prop :=
  exists row, nth_error m i = Some row /\ nth_error row j = Some v.

(** How plotly reads a contour: the number in row [i] and column [j] belongs to the
    [j]-th horizontal and the [i]-th vertical coordinate. *)
Definition contour_shows (c : contour) (x y v : R) : Prop :=
  exists i j, nth_error (ct_x c) j = Some x /\ nth_error (ct_y c) i = Some y /\ at_position (ct_z c) i j v.

(** How plotly reads a surface. *)
Definition surface_shows (m : mesh) (x y v : R) : Prop :=
  exists i j, at_position (ms_x m) i j x /\ at_position (ms_y m) i j y /\ at_position (ms_z m) i j v.
