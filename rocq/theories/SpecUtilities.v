(** What it means to reduce a specification or a table of parameters. Refers to the typed
    specification and to tables of parameters only. *)
Require Import String ZArith QArith List.
From Verif Require Import PyBase ModelSpec SpecModel ParamsIndex SpecIndex Utilities.
Import ListNotations.
Open Scope string_scope.
Open Scope list_scope.
Open Scope nat_scope.

(** The name is one of those that were passed: a single one or a list. *)
Definition named (n : names) (s : string) : Prop :=
  match n with One t => s = t | Many l => In s l end.

(** [kept P l l']: [l'] consists of the elements of [l] that satisfy [P], in their order. *)
Inductive kept {A} (P : A -> Prop) : list A -> list A -> Prop :=
| kept_nil : kept P [] []
| kept_keep x l l' : P x -> kept P l l' -> kept P (x :: l) (x :: l')
| kept_drop x l l' : ~ P x -> kept P l l' -> kept P (x :: l) l'.

(** [kept_section P l section]: a section with a list of which the elements with [P] are kept;
    the section is dropped if nothing is left. *)
Definition kept_section {A} (P : A -> Prop) (l : list A) (section : option (list A)) : Prop :=
  exists l', kept P l l' /\
    ((l' = [] /\ section = None) \/ (l' <> [] /\ section = Some l')).

(** [params] has one row for each parameter of the model (and maybe further ones). *)
Definition covers (md : model_dict) (params : pframe) : Prop :=
  NoDup (pf_index params) /\ forall lb, is_param md lb -> In lb (pf_index params).

(** [cells] are the cells of [lb] in the table. *)
Definition row_of (params : pframe) (lb : label) (cells : string -> pcell) : Prop :=
  In (lb, cells) (pf_rows params).

(** [params'] is the part of [params] that belongs to the model [md']. *)
Definition part_of (md' : model_dict) (params params' : pframe) : Prop :=
  pf_columns params' = pf_columns params /\
  (forall lb, In lb (pf_index params') <-> is_param md' lb) /\
  (forall lb cells, row_of params' lb cells -> row_of params lb cells).

(** The default of a column for parameters without value. *)
Definition default_cell (column : string) : pcell :=
  if String.eqb column "value" then PNum (5 # 100)
  else if String.eqb column "lower_bound" then PNegInf
  else if String.eqb column "upper_bound" then PPosInf
  else PNan.

(** The transition function of factor [f]. *)
Definition has_transition (md : model_dict) (f : string) (t : trans_spec) : Prop :=
  exists fs, In (f, fs) (md_factors md) /\ fs_transition fs = t.

(** Normalizations up to empty dictionaries at the end of the lists. *)
Definition same_up_to_empty {A} (l l' : list (list A)) : Prop :=
  exists k, l = l' ++ repeat [] k.
Definition same_norms (o o' : option (list (dict Q))) : Prop :=
  match o, o' with
  | None, None => True
  | Some l, Some l' => same_up_to_empty l l'
  | _, _ => False
  end.

(** The same specification of a factor, up to empty dictionaries at the end of
    normalizations. *)
Definition same_factor (fs fs' : factor_spec) : Prop :=
  fs_measurements fs' = fs_measurements fs /\ fs_transition fs' = fs_transition fs /\
  match fs_norm fs, fs_norm fs' with
  | None, None => True
  | Some nm, Some nm' =>
      same_norms (ns_loadings nm) (ns_loadings nm') /\ same_norms (ns_intercepts nm) (ns_intercepts nm')
  | _, _ => False
  end.

(** [v] is the value that the tables [others] give to [lb], in the order of the list: the
    last one that is not missing. *)
Definition gives (other : pframe) (lb : label) (v : pcell) : Prop :=
  exists cells, row_of other lb cells /\ cells "value" = v /\ v <> PNan.
Definition gives_last (others : list pframe) (lb : label) (v : pcell) : Prop :=
  exists before other after, others = before ++ other :: after /\ gives other lb v /\
    forall o v', In o after -> ~ gives o lb v'.

(** The anchoring section after factors were removed. *)
Definition reduced_anchoring (removed : names) (o o' : option anchoring_spec) : Prop :=
  match o with
  | None => o' = None
  | Some a =>
      exists outcomes left, as_outcomes a = Some outcomes /\
        kept (fun fo => ~ named removed (fst fo)) outcomes left /\
        ((left = [] /\ o' = None) \/
         (left <> [] /\ o' = Some (mk_anch (Some left) (as_free_controls a) (as_free_constant a)
                                     (as_free_loadings a) (as_ignore_constant a))))
  end.

(** [params'] has the cells of [params], where missing values are replaced by the default
    of the column; labels without row in [params] get a row of defaults. *)
Definition extended (params params' : pframe) : Prop :=
  pf_columns params' = pf_columns params /\
  forall lb cells' column, row_of params' lb cells' -> In column (pf_columns params) ->
    (forall cells, row_of params lb cells ->
       (cells column <> PNan -> cells' column = cells column) /\
       (cells column = PNan -> cells' column = default_cell column)) /\
    (~ In lb (pf_index params) -> cells' column = default_cell column).

(** A factor after its transition function was exchanged. *)
Definition switched (old new : string) (fs fs' : factor_spec) : Prop :=
  fs_measurements fs' = fs_measurements fs /\ fs_norm fs' = fs_norm fs /\
  (fs_transition fs = TStr old -> fs_transition fs' = TStr new) /\
  (fs_transition fs <> TStr old -> fs_transition fs' = fs_transition fs).

(** Two specifications that only differ in the specifications of factors. *)
Definition same_but_factors (R : factor_spec -> factor_spec -> Prop) (md md' : model_dict) : Prop :=
  Forall2 (fun kv kv' => fst kv' = fst kv /\ R (snd kv) (snd kv')) (md_factors md) (md_factors md') /\
  md_observed md' = md_observed md /\ md_controls md' = md_controls md /\
  md_stagemap md' = md_stagemap md /\ md_anchoring md' = md_anchoring md /\ md_options md' = md_options md.

(** A factor without some measurements. *)
Definition reduced_norms (removed : names) (o o' : option (list (dict Q))) : Prop :=
  match o, o' with
  | None, None => True
  | Some l, Some l' => Forall2 (kept (fun vq => ~ named removed (fst vq))) l l'
  | _, _ => False
  end.
Definition without_measurements (removed : names) (fs fs' : factor_spec) : Prop :=
  Forall2 (kept (fun v => ~ named removed v)) (fs_measurements fs) (fs_measurements fs') /\
  fs_transition fs' = fs_transition fs /\
  match fs_norm fs, fs_norm fs' with
  | None, None => True
  | Some nm, Some nm' =>
      reduced_norms removed (ns_loadings nm) (ns_loadings nm') /\
      reduced_norms removed (ns_intercepts nm) (ns_intercepts nm')
  | _, _ => False
  end.

(** The first [k] periods of a factor. *)
Definition first_periods (k : nat) (fs fs' : factor_spec) : Prop :=
  fs_measurements fs' = firstn k (fs_measurements fs) /\ fs_transition fs' = fs_transition fs /\
  match fs_norm fs, fs_norm fs' with
  | None, None => True
  | Some nm, Some nm' =>
      ns_loadings nm' = option_map (firstn k) (ns_loadings nm) /\
      ns_intercepts nm' = option_map (firstn k) (ns_intercepts nm)
  | _, _ => False
  end.
