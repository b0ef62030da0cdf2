(** Model of likelihood_function.py:434-446 [_get_jnp_params_vec]. *)
Require Import String Arith Bool List.
From Verif Require Import PyBase ModelSpec ProcessModel CheckModel ParamsIndex ParseParams.
Import ListNotations.
Open Scope string_scope.
Open Scope list_scope.
Open Scope nat_scope.

Definition label_eqb (a b : label) : bool :=
  cat_eqb (lb_cat a) (lb_cat b) && (lb_period a =? lb_period b)
  && String.eqb (lb_name1 a) (lb_name1 b) && String.eqb (lb_name2 a) (lb_name2 b).

Definition label_mem (lb : label) (l : list label) : bool := existsb (label_eqb lb) l.

Fixpoint has_dup (l : list label) : bool :=
  match l with
  | [] => false
  | x :: l' => label_mem x l' || has_dup l'
  end.

(** the row of a DataFrame with a unique index *)
Fixpoint row_value {A} (rows : list (label * A)) (lb : label) : option A :=
  match rows with
  | [] => None
  | (lb', x) :: rows' => if label_eqb lb lb' then Some x else row_value rows' lb
  end.

Fixpoint labels_eqb (a b : list label) : bool :=
  match a, b with
  | [], [] => true
  | x :: a', y :: b' => label_eqb x y && labels_eqb a' b'
  | _, _ => false
  end.

(** likelihood_function.py:434-446 [_get_jnp_params_vec]: a params DataFrame is
    the list of its rows. [reindex] raises ValueError if the index has duplicates,
    unless it is identical to the target. *)
Definition get_params_vec {A} (params : list (label * A)) (target : list label)
  : result (list A) :=
  let idx := map fst params in
  if negb (forallb (fun lb => label_mem lb target) idx
           && forallb (fun lb => label_mem lb idx) target)
  then Err ValueError
  else if labels_eqb idx target then Ok (map snd params)
  else if has_dup idx then Err ValueError
  else mapM (fun lb => match row_value params lb with
                       | Some x => Ok x
                       | None => Err KeyError
                       end) target.

(** [params.loc[index]]: all rows with the label, for each label; KeyError if there is
    none. *)
Definition loc_rows {A} (params : list (label * A)) (index : list label) : result (list (label * A)) :=
  do blocks <- mapM (fun lb =>
      match filter (fun row => label_eqb lb (fst row)) params with
      | [] => Err KeyError
      | rows => Ok rows
      end) index;
  Ok (concat blocks).
