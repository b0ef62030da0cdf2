(** Model of skillmodels/check_model.py and of [process_model]. *)
Require Import String Arith ZArith QArith Bool List.
From Verif Require Import PyBase ModelSpec ProcessModel.
Import ListNotations.
Open Scope string_scope.
Open Scope list_scope.
Open Scope nat_scope.

(** The entries of the report (check_model.py:29-34). Only the kind of problem
    and its location are kept, not the text. The isinstance problems cannot occur
    for typed specifications, see [RawModel.v]. *)
Inductive problem :=
| StagemapLength | StagesNotConsecutive | StagemapStep
| NormNotMeasured (factor : string) (period : nat) (var : string)
| LoadingIsZero (factor : string) (period : nat) (var : string).

(** [np.array(stagemap[1:]) - np.array(stagemap[:-1])], check_model.py:52 *)
Fixpoint diffs (l : list Z) : list Z :=
  match l with
  | x :: ((y :: _) as l') => (y - x)%Z :: diffs l'
  | _ => []
  end.

(** [l == list(range(len(l)))] for integers, check_model.py:49 *)
Fixpoint is_range_from (k : Z) (l : list Z) : bool :=
  match l with
  | [] => true
  | x :: l' => Z.eqb x k && is_range_from (k + 1)%Z l'
  end.

(** check_model.py:41-54 [_check_stagemap]. *)
Definition check_stagemap (stagemap stages : list Z) (n_periods : nat) : list problem :=
  (if Z.eqb (Z.of_nat (length stagemap)) (Z.of_nat n_periods - 1) then [] else [StagemapLength])
  ++ (if is_range_from 0 stages then [] else [StagesNotConsecutive])
  ++ (if forallb (fun d => Z.eqb d 0 || Z.eqb d 1) (diffs stagemap) then [] else [StagemapStep]).

(** check_model.py:120-131 [_check_normalized_variables_are_present]. The
    subscript [measurements][period] is only evaluated if the normalization
    dictionary of the period is not empty; it raises IndexError if the factor has
    fewer measurement lists. *)
Definition check_normalized_present (normdicts : list (dict Q))
    (meas : list (list string)) (factor : string) : result (list problem) :=
  rmap (@concat problem)
    (mapM (fun pn =>
      rmap (@concat problem)
        (mapM (fun kv =>
          do ms <- nth_err meas (fst pn);
          Ok (if smem (fst kv) ms then [] else [NormNotMeasured factor (fst pn) (fst kv)]))
        (snd pn)))
    (enumerate normdicts)).

(** check_model.py:134-143 [_check_loadings_are_not_normalized_to_zero]. *)
Definition check_loadings_not_zero (normdicts : list (dict Q)) (factor : string)
  : list problem :=
  flat_map (fun pn =>
    flat_map (fun kv =>
      if Qeq_bool (snd kv) 0 then [LoadingIsZero factor (fst pn) (fst kv)] else [])
    (snd pn)) (enumerate normdicts).

(** check_model.py:97-117 [_check_normalizations]. *)
Definition check_normalizations (md : model_dict) (factors : list string)
  : result (list problem) :=
  rmap (@concat problem)
    (mapM (fun f =>
      do fs <- dget_err (md_factors md) f;
      let norminfo := get_default (fs_norm fs) (mk_norm None None) in
      let lo := get_default (ns_loadings norminfo) [] in
      let ic := get_default (ns_intercepts norminfo) [] in
      do r1 <- check_normalized_present lo (fs_measurements fs) f;
      do r2 <- check_normalized_present ic (fs_measurements fs) f;
      Ok (r1 ++ check_loadings_not_zero lo f ++ r2)) factors).

(** check_model.py:4-38 [check_model]. [_check_anchoring] and
    [_check_measurements] only contain isinstance checks. *)
Definition check_model (md : model_dict) (l : labels) (d : dims) : result unit :=
  do rn <- check_normalizations md (l_latent l);
  match check_stagemap (l_stagemap l) (l_stages l) (n_periods d) ++ rn with
  | [] => Ok tt
  | _ => Err ValueError
  end.

(** process_model.py:47-55, the processed model. *)
Record processed := mk_processed {
  p_dims : dims; p_labels : labels; p_anch : anchinfo; p_options : options;
  p_tinfo : trans_info; p_update : list urow; p_norms : dict norms }.

(** process_model.py:45, labels["transition_names"] *)
Definition p_transition_names (p : processed) : list string :=
  dvalues (t_function_names (p_tinfo p)).

(** process_model.py:16-56 [process_model]. *)
Definition process_model (md : model_dict) : result processed :=
  do d <- get_dimensions md;
  let l := get_labels md d in
  let a := process_anchoring md in
  do _ <- check_model md l d;
  do t <- get_transition_info md l;
  do u <- get_update_info md d l a;
  do n <- process_normalizations md d l;
  Ok (mk_processed d l a (process_estimation_options md) t u n).
