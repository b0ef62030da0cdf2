(** Model of skillmodels/utilities.py. *)
Require Import String Arith ZArith QArith Bool List.
From Verif Require Import PyBase ModelSpec ProcessModel CheckModel ParamsIndex ParseParams ParamsVec.
Import ListNotations.
Open Scope string_scope.
Open Scope list_scope.
Open Scope nat_scope.

(** A cell of a params DataFrame. *)
Inductive pcell := PNan | PNum (q : Q) | PNegInf | PPosInf | PText (s : string).

(** A params DataFrame: its columns and, for each row, the label and the cells by
    column. *)
Record pframe := mk_pframe {
  pf_columns : list string;
  pf_rows : list (label * (string -> pcell)) }.

Definition pf_index (params : pframe) : list label := map fst (pf_rows params).

(** Arguments "str or list": a single name or a list of names. *)
Inductive names := One (s : string) | Many (l : list string).

(** utilities.py:27-28, 266-267, 272-273: [if isinstance(x, str): x = [x]] *)
Definition as_list (n : names) : list string :=
  match n with One s => [s] | Many l => l end.

(** utilities.py:265-268 [_remove_from_list] *)
Definition remove_from_list (l : list string) (to_remove : names) : list string :=
  filter (fun element => negb (smem element (as_list to_remove))) l.

(** utilities.py:271-275 [_remove_from_dict] *)
Definition remove_from_dict {V} (d : dict V) (to_remove : names) : dict V :=
  filter (fun kv => negb (smem (fst kv) (as_list to_remove))) d.

(** [list_[:length]] for a possibly negative length *)
Definition slice_to {A} (l : list A) (len : Z) : list A :=
  if (0 <=? len)%Z then firstn (Z.to_nat len) l
  else firstn (Z.to_nat (Z.of_nat (length l) + len)) l.

(** utilities.py:331-334 [_shorten_if_necessary] *)
Definition shorten_if_necessary {A} (l : list A) (len : Z) : list A :=
  if (len <? Z.of_nat (length l))%Z then slice_to l len else l.

(** utilities.py:310-318 [_get_params_index_from_model_dict] *)
Definition index_from_model_dict (md : model_dict) : result (list label) :=
  do p <- process_model md;
  Ok (params_index_of p).

(** utilities.py:278-294 [_reduce_params] *)
Definition reduce_params (params : pframe) (md : model_dict) : result pframe :=
  do index <- index_from_model_dict md;
  do rows <- loc_rows (pf_rows params) index;
  Ok (mk_pframe (pf_columns params) rows).

(** [params.reindex(index)]: ValueError for duplicates in the index (unless it is the
    target already); a row of NaN for labels that are missing. *)
Definition reindex_rows (rows : list (label * (string -> pcell))) (target : list label)
  : result (list (label * (string -> pcell))) :=
  if labels_eqb (map fst rows) target then Ok rows
  else if has_dup (map fst rows) then Err ValueError
  else Ok (map (fun lb => (lb, match row_value rows lb with
                               | Some cells => cells
                               | None => fun _ => PNan
                               end)) target).

(** [out[column] = out[column].fillna(fill_value)]; KeyError if there is no such column. *)
Definition fillna_column (column : string) (fill : pcell) (rows : list (label * (string -> pcell)))
  : list (label * (string -> pcell)) :=
  map (fun row => (fst row, fun c =>
    if String.eqb c column
    then match snd row c with PNan => fill | x => x end
    else snd row c)) rows.

(** utilities.py:297-307 [_extend_params] *)
Definition extend_params (params : pframe) (md : model_dict) (fill_value : Q) : result pframe :=
  do index <- index_from_model_dict md;
  do rows <- reindex_rows (pf_rows params) index;
  if negb (smem "value" (pf_columns params)) then Err KeyError
  else
    let rows := fillna_column "value" (PNum fill_value) rows in
    let rows := if smem "lower_bound" (pf_columns params)
                then fillna_column "lower_bound" PNegInf rows else rows in
    let rows := if smem "upper_bound" (pf_columns params)
                then fillna_column "upper_bound" PPosInf rows else rows in
    Ok (mk_pframe (pf_columns params) rows).

(** 0.05 (the nearest binary fraction in the code) *)
Definition five_percent : Q := (5 # 100)%Q.

(** [if params is not None: out = (out, adjust(params, out))] *)
Definition with_params (adjust : pframe -> model_dict -> result pframe) (params : option pframe)
    (md : model_dict) : result (model_dict * option pframe) :=
  match params with
  | None => Ok (md, None)
  | Some params => do out_params <- adjust params md; Ok (md, Some out_params)
  end.

(** utilities.py:244-254, 120-134: [out["factors"][factor]["normalizations"][...] = ...]
    for the keys that exist; absent ones stay absent. *)
Definition map_norms (f g : list (dict Q) -> list (dict Q)) (nm : norm_spec) : norm_spec :=
  mk_norm (option_map f (ns_loadings nm)) (option_map g (ns_intercepts nm)).

Definition map_factors (f : factor_spec -> factor_spec) (md : model_dict) : model_dict :=
  mk_md (map (fun kv => (fst kv, f (snd kv))) (md_factors md)) (md_observed md) (md_controls md)
        (md_stagemap md) (md_anchoring md) (md_options md).

(** utilities.py:225-262 [reduce_n_periods] *)
Definition reduce_n_periods (md : model_dict) (new_n_periods : Z) (params : option pframe)
  : result (model_dict * option pframe) :=
  let shorten {A} (l : list A) := shorten_if_necessary l new_n_periods in
  let out := map_factors (fun fs =>
      mk_factor (shorten (fs_measurements fs)) (fs_transition fs)
                (option_map (map_norms shorten shorten) (fs_norm fs))) md in
  let out := mk_md (md_factors out) (md_observed out) (md_controls out)
                   (option_map (fun sm => shorten_if_necessary sm (new_n_periods - 1)) (md_stagemap out))
                   (md_anchoring out) (md_options out) in
  with_params (fun ps m => extend_params ps m five_percent) params out.

(** utilities.py:59-97 [remove_factors] *)
Definition remove_factors (factors : names) (md : model_dict) (params : option pframe)
  : result (model_dict * option pframe) :=
  do anchoring <- match md_anchoring md with
                  | None => Ok None
                  | Some a =>
                      match as_outcomes a with
                      | None => Err KeyError      (* out["anchoring"]["outcomes"] *)
                      | Some outcomes =>
                          match remove_from_dict outcomes factors with
                          | [] => Ok None
                          | outcomes => Ok (Some (mk_anch (Some outcomes) (as_free_controls a)
                                              (as_free_constant a) (as_free_loadings a)
                                              (as_ignore_constant a)))
                          end
                      end
                  end;
  let out := mk_md (remove_from_dict (md_factors md) factors) (md_observed md) (md_controls md)
                   (md_stagemap md) anchoring (md_options md) in
  do d <- get_dimensions out;
  do out <- reduce_n_periods out (Z.of_nat (n_periods d)) None;
  with_params reduce_params params (fst out).

(** utilities.py:12-32 [extract_factors]; the set is only used for membership. *)
Definition extract_factors (factors : names) (md : model_dict) (params : option pframe)
  : result (model_dict * option pframe) :=
  let to_remove := filter (fun f => negb (smem f (as_list factors))) (dkeys (md_factors md)) in
  remove_factors (Many to_remove) md params.

(** utilities.py:321-328 [_remove_measurements_from_normalizations], without the warning *)
Definition remove_from_normalizations (measurements : names) (normalizations : list (dict Q))
  : list (dict Q) :=
  map (fun norm => remove_from_dict norm measurements) normalizations.

(** utilities.py:323: [reduced != normalizations] *)
Definition warns_normalized (measurements : names) (normalizations : list (dict Q)) : bool :=
  existsb (fun norm => negb (length (remove_from_dict norm measurements) =? length norm))
    normalizations.

(** utilities.py:100-141 [remove_measurements] *)
Definition remove_measurements (measurements : names) (md : model_dict) (params : option pframe)
  : result (model_dict * option pframe) :=
  let out := map_factors (fun fs =>
      mk_factor (map (fun meas_list => remove_from_list meas_list measurements) (fs_measurements fs))
                (fs_transition fs)
                (option_map (map_norms (remove_from_normalizations measurements)
                                       (remove_from_normalizations measurements)) (fs_norm fs))) md in
  with_params reduce_params params out.

(** Whether [remove_measurements] warns that a normalized measurement was removed. *)
Definition remove_measurements_warns (measurements : names) (md : model_dict) : bool :=
  existsb (fun kv =>
    let norminfo := get_default (fs_norm (snd kv)) (mk_norm None None) in
    warns_normalized measurements (get_default (ns_loadings norminfo) [])
    || warns_normalized measurements (get_default (ns_intercepts norminfo) [])) (md_factors md).

(** utilities.py:144-168 [remove_controls] *)
Definition remove_controls (controls : names) (md : model_dict) (params : option pframe)
  : result (model_dict * option pframe) :=
  match md_controls md with
  | None => Err KeyError                        (* out["controls"] *)
  | Some cs =>
      let reduced := match remove_from_list cs controls with [] => None | l => Some l end in
      let out := mk_md (md_factors md) (md_observed md) reduced (md_stagemap md) (md_anchoring md)
                       (md_options md) in
      with_params reduce_params params out
  end.

(** utilities.py:185-188, 214-217 *)
Definition switch_transition (old new : string) (fs : factor_spec) : factor_spec :=
  mk_factor (fs_measurements fs)
            (match fs_transition fs with
             | TStr s => if String.eqb s old then TStr new else TStr s
             | t => t
             end) (fs_norm fs).

(** utilities.py:171-194 [switch_translog_to_linear] *)
Definition switch_translog_to_linear (md : model_dict) (params : option pframe)
  : result (model_dict * option pframe) :=
  with_params reduce_params params (map_factors (switch_transition "translog" "linear") md).

(** utilities.py:197-222 [switch_linear_to_translog] *)
Definition switch_linear_to_translog (md : model_dict) (params : option pframe)
  : result (model_dict * option pframe) :=
  with_params (fun ps m => extend_params ps m five_percent) params
    (map_factors (switch_transition "linear" "translog") md).

(** utilities.py:35-53 [update_parameter_values]. [others] is the list of the other
    DataFrames (a single one is wrapped into a list). [Series.update] aligns the new
    values (ValueError for duplicates unless the indices are equal) and ignores NaN. *)
Definition update_values (out other : pframe) : result pframe :=
  if negb (smem "value" (pf_columns out)) then Err KeyError
  else if negb (smem "value" (pf_columns other)) then Err KeyError
  else
    do aligned <- reindex_rows (pf_rows other) (pf_index out);
    Ok (mk_pframe (pf_columns out)
          (map (fun rn => (fst (fst rn), fun c =>
             if String.eqb c "value"
             then match snd (snd rn) c with PNan => snd (fst rn) c | x => x end
             else snd (fst rn) c)) (combine (pf_rows out) aligned))).

Definition update_parameter_values (params : pframe) (others : list pframe) : result pframe :=
  fold_left (fun acc other => do out <- acc; update_values out other) others (Ok params).
