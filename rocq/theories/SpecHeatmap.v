(** What the words of properties C63 and C72 - C79 mean. *)
Require Import Reals String Arith ZArith Bool List.
From Verif Require Import PyBase ModelSpec ProcessModel CheckModel SpecModel SpecParse ParamsIndex
  ParamsVec ProcessData SpecData SpecTransition Heatmap.
Import ListNotations.
Open Scope string_scope.
Open Scope list_scope.
Open Scope nat_scope.

(** ** Statistics *)

Definition average (xs : list R) : R := (sum_of xs (fun x => x) / INR (length xs))%R.

Definition constant (xs : list R) : Prop := exists c, forall x, In x xs -> x = c.

Definition covariance (ps : list (R * R)) : R :=
  average (map (fun p => (fst p - average (map fst ps)) * (snd p - average (map snd ps)))%R ps).

Definition variance (xs : list R) : R := covariance (map (fun x => (x, x)) xs).

(** The correlation of two variables; undefined if one of them does not vary. *)
Definition is_correlation (ps : list (R * R)) (r : option R) : Prop :=
  match r with
  | None => constant (map fst ps) \/ constant (map snd ps)
  | Some r => ~ constant (map fst ps) /\ ~ constant (map snd ps) /\
              r = (covariance ps / (sqrt (variance (map fst ps)) * sqrt (variance (map snd ps))))%R
  end.

(** A variable: its value for each individual, [None] if missing. *)
Definition variable := Z -> option R.

Definition known (ids : list Z) (f : variable) : list R :=
  flat_map (fun id => match f id with Some x => [x] | None => [] end) ids.

(** The values of two variables for the individuals for which both are known. *)
Definition both_known (ids : list Z) (f g : variable) : list (R * R) :=
  flat_map (fun id => match f id, g id with Some x, Some y => [(x, y)] | _, _ => [] end) ids.

(** A correlation matrix of the variables [vars] with the labels [names]. *)
Definition correlates (ids : list Z) (names : list string) (vars : list variable) (c : corr_df)
  : Prop :=
  co_index c = names /\ co_columns c = names /\
  length names = length vars /\ length (co_cells c) = length vars /\
  (forall row, In row (co_cells c) -> length row = length vars) /\
  forall i j f g, nth_error vars i = Some f -> nth_error vars j = Some g ->
    exists r, entry (co_cells c) i j r /\ is_correlation (both_known ids f g) r.

(** ** What is correlated *)

(** [v] is listed as measurement of factor [f] in period [t]. *)
Definition measured_by (md : model_dict) (t : nat) (f v : string) : bool :=
  match dget (md_factors md) f with
  | Some fs => smem v (nth t (fs_measurements fs) [])
  | None => false
  end.

(** The measurements of factor [f] in period [t], in the order of the equations. *)
Definition measurements_of (md : model_dict) (n t : nat) (f : string) : list string :=
  filter (measured_by md t f)
         (map snd (filter (fun e => fst e =? t) (equations md n))).

(** The factors an argument stands for: all for None, an empty list or an empty
    string; unknown names in a list are ignored. *)
Inductive selects (md : model_dict) : factors_arg -> list string -> list string -> Prop :=
| select_all : selects md AllFactors (latent_of md) (observed_of md)
| select_latent s : s <> "" -> In s (latent_of md) -> selects md (OneFactor s) [s] []
| select_observed s : s <> "" -> ~ In s (latent_of md) -> In s (observed_of md) ->
    selects md (OneFactor s) [] [s]
| select_empty_string : selects md (OneFactor "") (latent_of md) (observed_of md)
| select_empty_list : selects md (ListFactors []) (latent_of md) (observed_of md)
| select_list l : l <> [] ->
    selects md (ListFactors l)
      (filter (fun f => if in_dec string_dec f (latent_of md) then true else false) l)
      (filter (fun f => if in_dec string_dec f (latent_of md) then false
                        else if in_dec string_dec f (observed_of md) then true else false) l).

(** The periods an argument stands for. *)
Definition chosen_periods (n : nat) (arg : periods_arg) (ts : list nat) : Prop :=
  match arg with
  | AllPeriods => ts = seq 0 n
  | OnePeriod t => ts = [t]
  | ListPeriods l => ts = l
  end.

(** The period is part of the labels if there is more than one. *)
Definition labelled (ts : list nat) (v : string) (t : nat) : string :=
  if length ts =? 1 then v else (v ++ ", " ++ str_nat t)%string.

(** An accepted model with [n] periods without measurements that have the name of an
    anchoring equation; a data set with individuals [ids] and periods [lv]. *)
Definition heatmap_setting (md : model_dict) (p : processed) (n : nat) (df : frame R)
    (ids lv : list Z) : Prop :=
  wf_dicts md /\ process_model md = Ok p /\ has_n_periods md n /\
  (forall k f g v, measures md k f v -> ~ anchors md k g v) /\
  wf_frame df /\ unique_index df /\ ids_of df ids /\ levels_of df lv.

Section Variables.
  Variables (md : model_dict) (n : nat) (df : frame R) (ids lv : list Z).

  (** Variable [v] of the data set in period [t]. *)
  Definition data_variable (v : string) (t : nat) : variable := fun id => raw_cells df lv id t v.

  (** The variables whose correlations are shown by get_measurements_corr. *)
  Definition shown_measurements (latent observed : list string) (ts : list nat)
    : list (string * nat) :=
    flat_map (fun t => map (fun v => (v, t))
      (flat_map (measurements_of md n t) latent ++ observed)) ts.

  (** The factors and periods for which scores are computed. *)
  Definition shown_factors (latent observed : list string) (ts : list nat)
    : list (string * nat) :=
    flat_map (fun t => map (fun f => (f, t)) (latent ++ observed)) ts.

  (** The average of the known values; missing if there are none. *)
  Definition average_known (xs : list (option R)) : option R :=
    match flat_map (fun x => match x with Some x => [x] | None => [] end) xs with
    | [] => None
    | known => Some (average known)
    end.

  Definition standard_deviation (xs : list R) : R :=
    sqrt (sum_of xs (fun x => (x - average xs) * (x - average xs))%R / (INR (length xs) - 1)).

  (** A variable minus its mean, divided by its standard deviation; missing if it does
      not vary. *)
  Definition standardized (f : variable) : variable := fun id =>
    match f id with
    | Some x => if Req_EM_T (standard_deviation (known ids f)) 0 then None
                else Some ((x - average (known ids f)) / standard_deviation (known ids f))%R
    | None => None
    end.

  Definition quasi_score (f : string) (t : nat) : variable := fun id =>
    average_known (map (fun v => standardized (data_variable v t) id) (measurements_of md n t f)).

  (** Value of a parameter. *)
  Variable value_of : label -> R.

  (** Measurements with a non-zero loading on more than one factor are not used. *)
  Definition single_loading (t : nat) (v : string) : bool :=
    length (filter (fun f => measured_by md t f v &&
              if Req_EM_T (value_of (CLoadings, t, v, f)) 0 then false else true)
            (latent_of md)) <=? 1.

  Definition score (f : string) (t : nat) : variable := fun id =>
    average_known (map (fun v =>
      option_map (fun x => (x - value_of (CControls, t, v, "constant")) /
                           value_of (CLoadings, t, v, f))%R (data_variable v t id))
      (filter (single_loading t) (measurements_of md n t f))).

  (** The variables whose correlations are shown by the functions for scores: observed
      factors are their own scores. *)
  Definition factor_variables (scores : string -> nat -> variable) (latent observed : list string)
      (ts : list nat) : list variable :=
    flat_map (fun t => map (fun f => scores f t) latent ++ map (fun f => data_variable f t) observed)
             ts.
End Variables.

(** A measurement in other units. *)
Definition in_other_units (v : string) (a b : R) (df : frame R) : frame R :=
  mk_frame (fr_columns df) (fr_id_level df) (fr_period_level df)
    (map (fun r => mk_drow (dr_id r) (dr_period r) (fun c =>
       if String.eqb c v then option_map (fun x => a * x + b)%R (dr_cells r c) else dr_cells r c))
       (fr_rows df)).

(** The parameters of the measurement equations of [v] in these units. *)
Definition equations_in_other_units (v : string) (a b : R) (params : list (label * R))
  : list (label * R) :=
  map (fun row => (fst row,
    if String.eqb (lb_name1 (fst row)) v then
      match lb_cat (fst row) with
      | CControls => if String.eqb (lb_name2 (fst row)) "constant" then a * snd row + b
                     else a * snd row
      | CLoadings | CMeasSds => a * snd row
      | _ => snd row
      end
    else snd row)%R) params.

(** ** What is plotted *)

(** A matrix with one row per index entry and one cell per column. *)
Definition rectangular (c : corr_df) : Prop :=
  length (co_cells c) = length (co_index c) /\
  forall row, In row (co_cells c) -> length row = length (co_columns c).

Section Plotted.
  Variables (show_upper show_diagonal : bool).

  (** The cells that are shown: those below the diagonal, and the others if asked for. *)
  Definition visible (i j : nat) : Prop :=
    j < i \/ (i < j /\ show_upper = true) \/ (i = j /\ show_diagonal = true).

  (** Cell (i, j) of the correlation matrix is displayed as [x]. *)
  Definition displays (round : R -> R) (c : corr_df) (i j : nat) (x : option R) : Prop :=
    exists y, entry (co_cells c) i j y /\
      (visible i j -> x = option_map round y) /\ (~ visible i j -> x = None).
End Plotted.

(** [z] is the largest absolute value of the correlations off the diagonal. *)
Definition largest_correlation (round : R -> R) (c : corr_df) (z : R) : Prop :=
  (forall i j x, i <> j -> entry (co_cells c) i j (Some x) -> (Rabs (round x) <= z)%R) /\
  (exists i j x, i <> j /\ entry (co_cells c) i j (Some x) /\ Rabs (round x) = z).
