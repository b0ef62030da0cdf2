(** Model specifications as they are passed: values of arbitrary types.

    This file models the part of [process_model] that has to cope with values of the
    wrong type (process_model.py:40-43): the dimensions, the labels, the anchoring
    information and the checks of check_model.py with their isinstance tests.  Everything
    after the checks is modelled on typed specifications ([ProcessModel.v]).

    Simplifications: the stagemap is absent or a list of integers; floating point numbers
    are rationals; an anchoring specification which is not a dictionary is not an iterable
    of pairs; dictionaries are lists of their items with distinct keys. *)
Require Import String Ascii Arith ZArith QArith Bool List.
From Verif Require Import PyBase ProcessModel CheckModel.
Import ListNotations.
Open Scope string_scope.
Open Scope list_scope.
Open Scope nat_scope.

(** Python values. [VObject] is any other object (a function, for example), which is only
    equal to itself. *)
Inductive pyval :=
| VNone
| VBool (b : bool)
| VInt (z : Z)
| VFloat (q : Q)
| VStr (s : string)
| VTuple (l : list pyval)
| VList (l : list pyval)
| VDict (items : list (pyval * pyval))
| VObject (id : nat).

Definition number (v : pyval) : option Q :=
  match v with
  | VBool b => Some (if b then 1%Q else 0%Q)
  | VInt z => Some (inject_Z z)
  | VFloat q => Some q
  | _ => None
  end.

(** [a == b] for a hashable [a]: numbers are compared by value, also across types. *)
Fixpoint key_eq (a b : pyval) : bool :=
  match a, b with
  | VNone, VNone => true
  | VStr s, VStr t => String.eqb s t
  | VTuple l, VTuple m =>
      (fix go (l m : list pyval) : bool :=
         match l, m with
         | [], [] => true
         | x :: l', y :: m' => key_eq x y && go l' m'
         | _, _ => false
         end) l m
  | VObject i, VObject j => i =? j
  | _, _ => match number a, number b with Some x, Some y => Qeq_bool x y | _, _ => false end
  end.

Fixpoint chars (s : string) : list pyval :=
  match s with
  | EmptyString => []
  | String c s' => VStr (String c EmptyString) :: chars s'
  end.

(** [list(v)] *)
Definition py_list (v : pyval) : result (list pyval) :=
  match v with
  | VStr s => Ok (chars s)
  | VTuple l | VList l => Ok l
  | VDict items => Ok (map fst items)
  | _ => Err TypeError
  end.

(** [len(v)] *)
Definition py_len (v : pyval) : result nat := rmap (@length pyval) (py_list v).

Fixpoint items_get (items : list (pyval * pyval)) (k : pyval) : option pyval :=
  match items with
  | [] => None
  | (k', v) :: items' => if key_eq k k' then Some v else items_get items' k
  end.

(** [v[key]] for a string [key] *)
Definition py_item (v : pyval) (key : string) : result pyval :=
  match v with
  | VDict items => match items_get items (VStr key) with Some x => Ok x | None => Err KeyError end
  | _ => Err TypeError
  end.

(** [v.get(key, default)] *)
Definition py_get (v : pyval) (key : string) (default : pyval) : result pyval :=
  match v with
  | VDict items => Ok (match items_get items (VStr key) with Some x => x | None => default end)
  | _ => Err AttributeError
  end.

(** [v[i]] for an integer [i >= 0] *)
Definition py_nth (v : pyval) (i : nat) : result pyval :=
  match v with
  | VTuple l | VList l => nth_err l i
  | VStr s => nth_err (chars s) i
  | VDict items => match items_get items (VInt (Z.of_nat i)) with Some x => Ok x | None => Err KeyError end
  | _ => Err TypeError
  end.

Fixpoint is_substring (s t : string) : bool :=
  String.prefix s t || match t with EmptyString => false | String _ t' => is_substring s t' end.

(** [x in v] *)
Definition py_in (x v : pyval) : result bool :=
  match v with
  | VTuple l | VList l => Ok (existsb (key_eq x) l)
  | VDict items => Ok (existsb (key_eq x) (map fst items))
  | VStr t => match x with VStr s => Ok (is_substring s t) | _ => Err TypeError end
  | _ => Err TypeError
  end.

(** isinstance(v, bool), isinstance(v, (str, int, tuple)), isinstance(v, list) and
    isinstance(v, dict); bool is a subclass of int. *)
Definition is_bool (v : pyval) : bool := match v with VBool _ => true | _ => false end.
Definition is_name (v : pyval) : bool :=
  match v with VStr _ | VInt _ | VBool _ | VTuple _ => true | _ => false end.
Definition is_list (v : pyval) : bool := match v with VList _ => true | _ => false end.
Definition is_dict (v : pyval) : bool := match v with VDict _ => true | _ => false end.

(** check_model.py:146-161 [_is_list_of] *)
Definition is_list_of (test : pyval -> bool) (v : pyval) : bool :=
  match v with VList l => forallb test l | _ => false end.

(** The entries of model_dict that are read by process_model; [None] is an absent one. *)
Record raw_model := mk_raw {
  rw_factors : option pyval;
  rw_observed : option pyval;
  rw_controls : option pyval;
  rw_stagemap : option (list Z);
  rw_anchoring : option pyval;
  rw_options : option pyval }.

Definition raw_entry (v : option pyval) : result pyval := match v with Some x => Ok x | None => Err KeyError end.
Definition raw_get (v : option pyval) (default : pyval) : pyval := match v with Some x => x | None => default end.

(** [model_dict["factors"].values()] etc.: a dictionary is needed *)
Definition raw_items (r : raw_model) : result (list (pyval * pyval)) :=
  do factors <- raw_entry (rw_factors r);
  match factors with VDict items => Ok items | _ => Err AttributeError end.

(** process_model.py:59-81 [get_dimensions]; the number of mixture elements may be
    anything. *)
Record raw_dims := mk_raw_dims {
  rd_latent : nat; rd_observed : nat; rd_periods : nat; rd_controls : nat; rd_mixtures : pyval }.

Definition raw_dimensions (r : raw_model) : result raw_dims :=
  do items <- raw_items r;
  do all_n_periods <- mapM (fun fd => do m <- py_item (snd fd) "measurements"; py_len m) items;
  do n_observed <- py_len (raw_get (rw_observed r) (VList []));
  do n_periods <- py_max all_n_periods;
  do n_controls <- py_len (raw_get (rw_controls r) (VList []));
  do options <- raw_entry (rw_options r);
  do n_mixtures <- py_get options "n_mixtures" (VInt 1);
  Ok (mk_raw_dims (length items) n_observed n_periods (n_controls + 1) n_mixtures).

(** process_model.py:84-110 [_get_labels] *)
Record raw_labels := mk_raw_labels {
  rl_latent : list pyval; rl_observed : list pyval; rl_controls : list pyval;
  rl_periods : list nat; rl_stagemap : list Z; rl_stages : list Z }.

Definition raw_labels_of (r : raw_model) (d : raw_dims) : result raw_labels :=
  let stagemap := match rw_stagemap r with Some s => s | None => map Z.of_nat (range (rd_periods d - 1)) end in
  do items <- raw_items r;
  do observed <- py_list (raw_get (rw_observed r) (VList []));
  do controls <- py_list (raw_get (rw_controls r) (VList []));
  Ok (mk_raw_labels (map fst items) observed (VStr "constant" :: controls) (range (rd_periods d)) stagemap (zsort_unique stagemap)).

(** process_model.py:140-165 [_process_anchoring] *)
Record raw_anchinfo := mk_raw_anchinfo {
  ra_anchoring : pyval; ra_outcomes : pyval; ra_factors : list pyval;
  ra_free_controls : pyval; ra_free_constant : pyval; ra_free_loadings : pyval }.

Definition raw_anchoring (r : raw_model) : result raw_anchinfo :=
  match rw_anchoring r with
  | None => Ok (mk_raw_anchinfo (VBool false) (VDict []) [] (VBool false) (VBool false) (VBool false))
  | Some (VDict items) =>
      let updated key default := match items_get items (VStr key) with Some x => x | None => default end in
      let outcomes := updated "outcomes" (VDict []) in
      do factors <- py_list outcomes;
      Ok (mk_raw_anchinfo (VBool true) outcomes factors (updated "free_controls" (VBool false))
            (updated "free_constant" (VBool false)) (updated "free_loadings" (VBool false)))
  | Some _ => Err TypeError
  end.

(** The entries of the report; the text is dropped. *)
Inductive raw_problem :=
| RStages (p : problem)
| RNotBool (entry : string)
| ROutcomesNotDict
| ROutcomeName
| RMeasurementsNotLists (factor : pyval)
| RMeasurementName (factor : pyval) (period : nat) (meas : pyval)
| RNormalizationsNotDicts (norm_type : string) (factor : pyval)
| RNotMeasured (factor : pyval) (period : nat) (var : pyval)
| RLoadingIsZero (factor : pyval) (period : nat) (var : pyval).

Definition check_bool (entry : string) (v : pyval) : list raw_problem := if is_bool v then [] else [RNotBool entry].

(** check_model.py:57-75 [_check_anchoring] *)
Definition raw_check_anchoring (a : raw_anchinfo) : list raw_problem :=
  check_bool "anchoring" (ra_anchoring a)
  ++ match ra_outcomes a with
     | VDict items => flat_map (fun kv => if is_name (snd kv) then [] else [ROutcomeName]) items
     | _ => [ROutcomesNotDict]
     end
  ++ check_bool "free_controls" (ra_free_controls a)
  ++ check_bool "free_constant" (ra_free_constant a)
  ++ check_bool "free_loadings" (ra_free_loadings a).

Definition entries (v : pyval) : list pyval := match v with VList l => l | _ => [] end.
Definition dict_items (v : pyval) : list (pyval * pyval) := match v with VDict items => items | _ => [] end.

(** check_model.py:78-94 [_check_measurements]. The loop over the factors and the lookup
    of their specification is a loop over the items. *)
Definition raw_check_measurements (items : list (pyval * pyval)) : result (list raw_problem) :=
  rmap (@concat raw_problem)
    (mapM (fun fd =>
       do candidate <- py_item (snd fd) "measurements";
       Ok (if negb (is_list_of is_list candidate) then [RMeasurementsNotLists (fst fd)]
           else flat_map (fun tm => flat_map (fun meas =>
                  if is_name meas then [] else [RMeasurementName (fst fd) (fst tm) meas]) (entries (snd tm)))
                (enumerate (entries candidate)))) items).

(** check_model.py:120-131 [_check_normalized_variables_are_present] *)
Definition raw_check_present (normdicts : list pyval) (spec factor : pyval) : result (list raw_problem) :=
  rmap (@concat raw_problem)
    (mapM (fun pn =>
       rmap (@concat raw_problem)
         (mapM (fun var =>
            do measurements <- py_item spec "measurements";
            do ms <- py_nth measurements (fst pn);
            do present <- py_in var ms;
            Ok (if present then [] else [RNotMeasured factor (fst pn) var]))
          (map fst (dict_items (snd pn)))))
     (enumerate normdicts)).

(** [val == 0] *)
Definition is_zero (v : pyval) : bool := match number v with Some q => Qeq_bool q 0 | None => false end.

(** check_model.py:134-143 [_check_loadings_are_not_normalized_to_zero] *)
Definition raw_check_zero (normdicts : list pyval) (factor : pyval) : list raw_problem :=
  flat_map (fun pn =>
    flat_map (fun kv => if is_zero (snd kv) then [RLoadingIsZero factor (fst pn) (fst kv)] else [])
      (dict_items (snd pn))) (enumerate normdicts).

(** check_model.py:97-117 [_check_normalizations] *)
Definition raw_check_normalizations (items : list (pyval * pyval)) : result (list raw_problem) :=
  rmap (@concat raw_problem)
    (mapM (fun fd =>
       do norminfo <- py_get (snd fd) "normalizations" (VDict []);
       rmap (@concat raw_problem)
         (mapM (fun norm_type =>
            do candidate <- py_get norminfo norm_type (VList []);
            if negb (is_list_of is_dict candidate) then Ok [RNormalizationsNotDicts norm_type (fst fd)]
            else
              do missing <- raw_check_present (entries candidate) (snd fd) (fst fd);
              Ok (missing ++ (if String.eqb norm_type "loadings" then raw_check_zero (entries candidate) (fst fd) else [])))
          ["loadings"; "intercepts"])) items).

(** check_model.py:29-34, the report *)
Definition raw_report (r : raw_model) (l : raw_labels) (d : raw_dims) (a : raw_anchinfo) : result (list raw_problem) :=
  do items <- raw_items r;
  do rm <- raw_check_measurements items;
  do rn <- raw_check_normalizations items;
  Ok (map RStages (check_stagemap (rl_stagemap l) (rl_stages l) (rd_periods d)) ++ raw_check_anchoring a ++ rm ++ rn).

(** process_model.py:40-43: everything up to the report. *)
Definition raw_process (r : raw_model) : result (raw_dims * raw_labels * raw_anchinfo * list raw_problem) :=
  do d <- raw_dimensions r;
  do l <- raw_labels_of r d;
  do a <- raw_anchoring r;
  do report <- raw_report r l d a;
  Ok (d, l, a, report).

(** check_model.py:36-38: a non-empty report is raised as a ValueError. *)
Definition raw_checked (r : raw_model) : result (raw_dims * raw_labels * raw_anchinfo) :=
  do out <- raw_process r;
  match snd out with [] => Ok (fst out) | _ => Err ValueError end.
