(** Model of skillmodels/process_data.py. *)
Require Import String Arith ZArith Bool List.
From Verif Require Import PyBase ModelSpec ProcessModel CheckModel.
Import ListNotations.
Open Scope string_scope.
Open Scope list_scope.
Open Scope nat_scope.

Section Data.
  Variable V : Type.             (* values of variables that are not NaN *)
  Variable one : V.
  Variable veqb : V -> V -> bool. (* equality of values *)

  (** A DataFrame with a MultiIndex (id, period). Cells are [None] if they are
      NaN; cells of names that are not columns are never read. The levels of the
      MultiIndex are part of the DataFrame: pandas keeps levels that no row uses.
      Simplifications: ids and periods are integers; the columns __old_id__ and
      __old_period__ (process_data.py:64-65), which only occur in the text of a
      warning, are left out. *)
  Record drow := mk_drow { dr_id : Z; dr_period : Z; dr_cells : string -> option V }.
  Record frame := mk_frame {
    fr_columns : list string; fr_id_level : list Z; fr_period_level : list Z;
    fr_rows : list drow }.

  (** The same after ids and periods have been replaced by codes. *)
  Record prow := mk_prow { pr_id : nat; pr_period : nat; pr_cells : string -> option V }.

  (** [df.sort_index()] (process_data.py:63) sorts by id, then period. *)
  Definition row_leb (a b : drow) : bool :=
    Z.ltb (dr_id a) (dr_id b) || (Z.eqb (dr_id a) (dr_id b) && Z.leb (dr_period a) (dr_period b)).
  Fixpoint insert_row (r : drow) (l : list drow) : list drow :=
    match l with
    | [] => [r]
    | x :: l' => if row_leb r x then r :: x :: l' else x :: insert_row r l'
    end.
  Definition sort_rows (l : list drow) : list drow := fold_right insert_row [] l.

  (** Position of a value in a level. *)
  Fixpoint code_of (z : Z) (level : list Z) : nat :=
    match level with
    | [] => 0
    | x :: level' => if Z.eqb z x then 0 else S (code_of z level')
    end.

  (** process_data.py:69-70: [set_levels(range(len(levels)))] replaces each value
      by its position in the level. sort_index has sorted the levels. *)
  Definition encode (df : frame) : list prow :=
    let ids := zsort_unique (fr_id_level df) in
    let pers := zsort_unique (fr_period_level df) in
    map (fun r => mk_prow (code_of (dr_id r) ids) (code_of (dr_period r) pers) (dr_cells r))
        (sort_rows (fr_rows df)).

  (** process_data.py:73: the sorted unique codes of the ids. *)
  Fixpoint ninsert (x : nat) (l : list nat) : list nat :=
    match l with
    | [] => [x]
    | y :: l' => if x =? y then y :: l' else if x <? y then x :: y :: l' else y :: ninsert x l'
    end.
  Definition nsort_unique (l : list nat) : list nat := fold_right ninsert [] l.

  Definition pkey_eqb (i t : nat) (r : prow) : bool := (pr_id r =? i) && (pr_period r =? t).

  Fixpoint has_dup_key (l : list prow) : bool :=
    match l with
    | [] => false
    | r :: l' => existsb (pkey_eqb (pr_id r) (pr_period r)) l' || has_dup_key l'
    end.

  (** process_data.py:74-77: [reindex] to the product of ids and periods. It
      raises ValueError if the index has duplicates. *)
  Definition reindex (rows : list prow) (ids periods : list nat) : result (list prow) :=
    if has_dup_key rows then Err ValueError
    else Ok (flat_map (fun i => map (fun t =>
           match find (pkey_eqb i t) rows with
           | Some r => r
           | None => mk_prow i t (fun _ => None)
           end) periods) ids).

  (** process_data.py:50-79 [pre_process_data]. *)
  Definition pre_process_data (df : frame) (periods : list nat) : result (list prow) :=
    let rows := encode df in
    reindex rows (nsort_unique (map pr_id rows)) periods.

  (** [df[col] = values] *)
  Definition set_cell (col : string) (x : option V) (r : prow) : prow :=
    mk_prow (pr_id r) (pr_period r)
            (fun c => if String.eqb c col then x else pr_cells r c).

  (** process_data.py:82-87 [_add_copies_of_anchoring_outcome]; the state is the
      columns and the rows. *)
  Fixpoint add_copies (a : anchinfo) (factors : list string) (columns : list string)
      (rows : list prow) : result (list string * list prow) :=
    match factors with
    | [] => Ok (columns, rows)
    | f :: factors' =>
        do outcome <- dget_err (a_outcomes a) f;
        if smem outcome columns
        then add_copies a factors' (anchoring_name outcome f :: columns)
               (map (fun r => set_cell (anchoring_name outcome f) (pr_cells r outcome) r) rows)
        else Err KeyError
    end.

  Definition is_null (x : option V) : bool := match x with None => true | Some _ => false end.
  Definition in_period (t : nat) (rows : list prow) : list prow :=
    filter (fun r => pr_period r =? t) rows.
  Definition column (c : string) (rows : list prow) : list (option V) :=
    map (fun r => pr_cells r c) rows.

  (** [len(x.dropna().unique())], process_data.py:102 *)
  Fixpoint dropna (l : list (option V)) : list V :=
    match l with
    | [] => []
    | Some x :: l' => x :: dropna l'
    | None :: l' => dropna l'
    end.
  Fixpoint unique (l : list V) : list V :=
    match l with
    | [] => []
    | x :: l' => x :: filter (fun y => negb (veqb x y)) (unique l')
    end.

  Inductive data_problem := VariableMissing | NoVariance | HasMissings.

  (** process_data.py:90-116 [_check_data]: the report. Entries are listed in the
      order in which they are written. *)
  Definition data_report (columns : list string) (rows : list prow) (u : list urow)
      (l : labels) (estimation : bool) : list (nat * string * data_problem) :=
    flat_map (fun t =>
      let pd := in_period t rows in
      flat_map (fun c =>
        if negb (smem c columns) || forallb is_null (column c pd)
        then [(t, c, VariableMissing)] else []) (l_controls l)
      ++ (if estimation
          then flat_map (fun m =>
                 if negb (smem m columns) then [(t, m, VariableMissing)]
                 else if length (unique (dropna (column m pd))) =? 1 then [(t, m, NoVariance)]
                 else []) (get_period_measurements u t)
          else [])
      ++ flat_map (fun f =>
           if negb (smem f columns) then [(t, f, VariableMissing)]
           else if existsb is_null (column f pd) then [(t, f, HasMissings)]
           else []) (l_observed l)) (l_periods l).

  Definition check_data (columns : list string) (rows : list prow) (u : list urow)
      (l : labels) (estimation : bool) : result unit :=
    match data_report columns rows u l estimation with
    | [] => Ok tt
    | _ => Err ValueError
    end.

  (** process_data.py:119-136 [_handle_controls_with_missings]. Rows are visited
      period by period in Python; here the same rows are blanked in one pass. A
      measurement that is not a column raises KeyError. *)
  Definition is_problematic (controls : list string) (u : list urow) (r : prow) : bool :=
    existsb (fun row => u_period row =? pr_period r) u
    && existsb (fun c => is_null (pr_cells r c)) controls
    && existsb (fun m => negb (is_null (pr_cells r m))) (get_period_measurements u (pr_period r)).

  Definition handle_controls (columns : list string) (rows : list prow)
      (controls : list string) (u : list urow) : result (list prow) :=
    if forallb (fun c => smem c columns) controls && forallb (fun row => smem (u_var row) columns) u
    then Ok (map (fun r => if is_problematic controls u r
                           then mk_prow (pr_id r) (pr_period r) (fun _ => None) else r) rows)
    else Err KeyError.

  (** process_data.py:139-143 [_generate_measurements_array] *)
  Definition measurements_array (columns : list string) (rows : list prow) (u : list urow)
      (n_obs : nat) : result (list (list (option V))) :=
    mapM (fun row =>
      if smem (u_var row) columns then
        let vals := column (u_var row) (in_period (u_period row) rows) in
        if length vals =? n_obs then Ok vals else Err ShapeError
      else Err KeyError) u.

  (** process_data.py:146-150 [_generate_controls_array] and 153-159
      [_generate_observed_factor_array]: [period][individual][variable]. *)
  Definition variables_array (columns : list string) (rows : list prow) (periods : list nat)
      (vars : list string) (n_obs : nat) : result (list (list (list (option V)))) :=
    mapM (fun t =>
      if forallb (fun c => smem c columns) vars then
        let pd := in_period t rows in
        if length pd =? n_obs then Ok (map (fun r => map (pr_cells r) vars) pd)
        else Err ShapeError
      else Err KeyError) periods.

  Record arrays := mk_arrays {
    ar_meas : list (list (option V));             (* update, individual *)
    ar_controls : list (list (list (option V)));  (* period, individual, control *)
    ar_observed : list (list (list (option V)))   (* period, individual, factor *)
  }.

  (** process_data.py:32-34, the first three steps of [process_data]: columns and
      rows of the balanced panel with the constant and the anchoring outcomes. *)
  Definition prepare_data (df : frame) (l : labels) (a : anchinfo)
    : result (list string * list prow) :=
    do rows <- pre_process_data df (l_periods l);
    add_copies a (a_factors a) ("constant" :: fr_columns df)
               (map (set_cell "constant" (Some one)) rows).

  (** process_data.py:10-47 [process_data]. With purpose "simulation"
      ([estimation] = false) no measurement array is returned; it is empty here. *)
  Definition process_data (df : frame) (l : labels) (u : list urow) (a : anchinfo)
      (estimation : bool) : result arrays :=
    do st <- prepare_data df l a;
    let columns := fst st in
    do _ <- check_data columns (snd st) u l estimation;
    let n_obs := length (snd st) / length (l_periods l) in
    do rows <- handle_controls columns (snd st) (l_controls l) u;
    do meas <- (if estimation then measurements_array columns rows u n_obs else Ok []);
    do controls <- variables_array columns rows (l_periods l) (l_controls l) n_obs;
    do observed <- variables_array columns rows (l_periods l) (l_observed l) n_obs;
    Ok (mk_arrays meas controls observed).
End Data.

Arguments mk_drow {V}. Arguments dr_id {V}. Arguments dr_period {V}. Arguments dr_cells {V}.
Arguments mk_frame {V}. Arguments fr_columns {V}. Arguments fr_id_level {V}.
Arguments fr_period_level {V}. Arguments fr_rows {V}.
Arguments mk_prow {V}. Arguments pr_id {V}. Arguments pr_period {V}. Arguments pr_cells {V}.
Arguments row_leb {V}. Arguments insert_row {V}. Arguments sort_rows {V}. Arguments encode {V}.
Arguments pkey_eqb {V}. Arguments has_dup_key {V}. Arguments reindex {V}.
Arguments pre_process_data {V}. Arguments set_cell {V}. Arguments add_copies {V}.
Arguments is_null {V}. Arguments in_period {V}. Arguments column {V}. Arguments dropna {V}.
Arguments unique {V}. Arguments data_report {V}. Arguments check_data {V}.
Arguments is_problematic {V}. Arguments handle_controls {V}. Arguments measurements_array {V}.
Arguments variables_array {V}. Arguments prepare_data {V}. Arguments mk_arrays {V}. Arguments ar_meas {V}.
Arguments ar_controls {V}. Arguments ar_observed {V}. Arguments process_data {V}.
