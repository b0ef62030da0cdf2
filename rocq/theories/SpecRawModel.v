(** Specification for [PropsRawModel.v]: what the report on a model specification of
    arbitrary types should list, and what a specification with the right containers is.
    Only the type of Python values, the type of specifications and the type of problems are
    taken from [RawModel.v]. *)
Require Import String Arith ZArith QArith Bool List.
From Verif Require Import PyBase ModelSpec ProcessModel CheckModel RawModel.
Import ListNotations.
Open Scope string_scope.
Open Scope list_scope.
Open Scope nat_scope.

(** *** Python values *)

(** Truth values are numbers. *)
Inductive numeric : pyval -> Q -> Prop :=
| num_true : numeric (VBool true) 1
| num_false : numeric (VBool false) 0
| num_int z : numeric (VInt z) (inject_Z z)
| num_float q : numeric (VFloat q) q.

(** [a == b] for values that can be keys of dictionaries. *)
Inductive same_value : pyval -> pyval -> Prop :=
| same_none : same_value VNone VNone
| same_string s : same_value (VStr s) (VStr s)
| same_number a b x y : numeric a x -> numeric b y -> (x == y)%Q -> same_value a b
| same_tuple l m : Forall2 same_value l m -> same_value (VTuple l) (VTuple m)
| same_object i : same_value (VObject i) (VObject i).

(** The value at a key of a dictionary with these items. *)
Definition has_item (items : list (pyval * pyval)) (key v : pyval) : Prop :=
  exists before k after, items = before ++ (k, v) :: after /\ same_value key k /\
    forall k' v', In (k', v') before -> ~ same_value key k'.
Definition no_item (items : list (pyval * pyval)) (key : pyval) : Prop :=
  forall k v, In (k, v) items -> ~ same_value key k.

(** The entry number [t], [v[t]]. *)
Inductive element_at : pyval -> nat -> pyval -> Prop :=
| list_element l t x : nth_error l t = Some x -> element_at (VList l) t x
| tuple_element l t x : nth_error l t = Some x -> element_at (VTuple l) t x
| string_element s t c : String.get t s = Some c -> element_at (VStr s) t (VStr (String c EmptyString))
| dict_element items t x : has_item items (VInt (Z.of_nat t)) x -> element_at (VDict items) t x.

(** [x in v]; in a string, this looks for a substring. *)
Inductive contains : pyval -> pyval -> Prop :=
| list_contains l x y : In y l -> same_value x y -> contains (VList l) x
| tuple_contains l x y : In y l -> same_value x y -> contains (VTuple l) x
| dict_contains items x k v : In (k, v) items -> same_value x k -> contains (VDict items) x
| string_contains before s after : contains (VStr (before ++ (s ++ after))%string) (VStr s).

(** [len(v)] *)
Inductive has_length : pyval -> nat -> Prop :=
| list_length l : has_length (VList l) (length l)
| tuple_length l : has_length (VTuple l) (length l)
| dict_length items : has_length (VDict items) (length items)
| string_length s : has_length (VStr s) (String.length s).

(** Things Python can iterate over. *)
Definition iterable (v : pyval) : Prop := exists n, has_length v n.

(** *** The entries of a specification *)

(** The dictionary [spec] has the value [v] at a key. *)
Definition entry (spec : pyval) (key : string) (v : pyval) : Prop :=
  exists items, spec = VDict items /\ has_item items (VStr key) v.

(** The same, with a default if there is no such key. *)
Definition entry_or (spec : pyval) (key : string) (default v : pyval) : Prop :=
  exists items, spec = VDict items /\
    (has_item items (VStr key) v \/ (no_item items (VStr key) /\ v = default)).

(** The specification of a factor. *)
Definition factor_of (r : raw_model) (f spec : pyval) : Prop :=
  exists items, rw_factors r = Some (VDict items) /\ In (f, spec) items.

(** The normalizations of one type for a factor with that specification. *)
Definition normalization (spec : pyval) (norm_type : string) (v : pyval) : Prop :=
  exists norminfo, entry_or spec "normalizations" (VDict []) norminfo /\ entry_or norminfo norm_type (VList []) v.

(** A given entry of the anchoring specification. *)
Definition anchoring_entry (r : raw_model) (key : string) (v : pyval) : Prop :=
  exists a, rw_anchoring r = Some a /\ entry a key v.

Definition boolean (v : pyval) : Prop := exists b, v = VBool b.
Definition dictionary (v : pyval) : Prop := exists items, v = VDict items.
Definition list_of_lists (v : pyval) : Prop := exists l, v = VList l /\ forall x, In x l -> exists m, x = VList m.
Definition list_of_dicts (v : pyval) : Prop := exists l, v = VList l /\ forall x, In x l -> dictionary x.

(** Strings, integers (truth values are integers in Python) and tuples. *)
Definition column_name (v : pyval) : Prop :=
  (exists s, v = VStr s) \/ (exists z, v = VInt z) \/ (exists b, v = VBool b) \/ (exists l, v = VTuple l).

(** [x] is in the measurements of period [t]. *)
Definition measured (measurements : pyval) (t : nat) (x : pyval) : Prop :=
  exists ms, element_at measurements t ms /\ contains ms x.

Definition equals_zero (v : pyval) : Prop :=
  v = VBool false \/ v = VInt 0 \/ exists q, v = VFloat q /\ (q == 0)%Q.

(** The stagemap in a model with [n] periods; every transition is its own stage if it is
    not given. *)
Definition raw_stagemap (r : raw_model) (n : nat) : list Z :=
  match rw_stagemap r with Some s => s | None => map Z.of_nat (seq 0 (n - 1)) end.

(** The number of periods is the largest number of measurement lists. *)
Definition periods_of (r : raw_model) (n : nat) : Prop :=
  (forall f spec m k, factor_of r f spec -> entry spec "measurements" m -> has_length m k -> k <= n) /\
  (exists f spec m, factor_of r f spec /\ entry spec "measurements" m /\ has_length m n).

(** The problems of a specification, in a model with [n] periods. *)
Inductive has_problem (r : raw_model) (n : nat) : raw_problem -> Prop :=
| stagemap_length :
    length (raw_stagemap r n) + 1 <> n -> has_problem r n (RStages StagemapLength)
| stages_with_holes :
    ~ (exists k, forall z, In z (raw_stagemap r n) <-> (0 <= z < Z.of_nat k)%Z) ->
    has_problem r n (RStages StagesNotConsecutive)
| stagemap_step i a b :
    nth_error (raw_stagemap r n) i = Some a -> nth_error (raw_stagemap r n) (S i) = Some b ->
    b <> a -> b <> (a + 1)%Z -> has_problem r n (RStages StagemapStep)
| outcomes_no_dictionary v :
    anchoring_entry r "outcomes" v -> ~ dictionary v -> has_problem r n ROutcomesNotDict
| outcome_no_name items factor outcome :
    anchoring_entry r "outcomes" (VDict items) -> In (factor, outcome) items -> ~ column_name outcome ->
    has_problem r n ROutcomeName
| flag_no_boolean key v :
    In key ["free_controls"; "free_constant"; "free_loadings"] ->
    anchoring_entry r key v -> ~ boolean v -> has_problem r n (RNotBool key)
| measurements_no_lists f spec m :
    factor_of r f spec -> entry spec "measurements" m -> ~ list_of_lists m ->
    has_problem r n (RMeasurementsNotLists f)
| measurement_no_name f spec l t ms x :
    factor_of r f spec -> entry spec "measurements" (VList l) -> list_of_lists (VList l) ->
    nth_error l t = Some (VList ms) -> In x ms -> ~ column_name x ->
    has_problem r n (RMeasurementName f t x)
| normalizations_no_dicts f spec norm_type v :
    factor_of r f spec -> In norm_type ["loadings"; "intercepts"] -> normalization spec norm_type v ->
    ~ list_of_dicts v -> has_problem r n (RNormalizationsNotDicts norm_type f)
| normalized_not_measured f spec norm_type l m t items x value :
    factor_of r f spec -> In norm_type ["loadings"; "intercepts"] -> normalization spec norm_type (VList l) ->
    list_of_dicts (VList l) -> nth_error l t = Some (VDict items) -> In (x, value) items ->
    entry spec "measurements" m -> ~ measured m t x -> has_problem r n (RNotMeasured f t x)
| loading_zero f spec l t items x value :
    factor_of r f spec -> normalization spec "loadings" (VList l) ->
    list_of_dicts (VList l) -> nth_error l t = Some (VDict items) -> In (x, value) items ->
    equals_zero value -> has_problem r n (RLoadingIsZero f t x).

(** The containers of a specification have the documented types: the entries can be read
    and every normalized variable belongs to a period for which there are measurements. *)
Definition right_containers (r : raw_model) : Prop :=
  (exists items, rw_factors r = Some (VDict items) /\ items <> []) /\
  (forall f spec, factor_of r f spec -> dictionary spec /\
     exists lists, entry spec "measurements" (VList lists) /\
       (forall x, In x lists -> exists m, x = VList m) /\
       (forall norminfo, entry spec "normalizations" norminfo -> dictionary norminfo) /\
       (forall norm_type l t items, In norm_type ["loadings"; "intercepts"] ->
          normalization spec norm_type (VList l) -> nth_error l t = Some (VDict items) -> items <> [] ->
          t < length lists)) /\
  (forall v, rw_observed r = Some v -> iterable v) /\
  (forall v, rw_controls r = Some v -> iterable v) /\
  (exists items, rw_options r = Some (VDict items)) /\
  (forall a, rw_anchoring r = Some a -> dictionary a) /\
  (forall v, anchoring_entry r "outcomes" v -> iterable v).

(** The typed specifications of [ModelSpec.v] as Python values. *)
Definition opt_item (key : string) (o : option pyval) : list (pyval * pyval) :=
  match o with Some v => [(VStr key, v)] | None => [] end.
Definition strings (l : list string) : pyval := VList (map VStr l).
Definition norm_dict (d : dict Q) : pyval := VDict (map (fun kv => (VStr (fst kv), VFloat (snd kv))) d).
Definition raw_norm (ns : norm_spec) : pyval :=
  VDict (opt_item "loadings" (option_map (fun l => VList (map norm_dict l)) (ns_loadings ns))
         ++ opt_item "intercepts" (option_map (fun l => VList (map norm_dict l)) (ns_intercepts ns))).
Definition raw_transition (t : trans_spec) : pyval := match t with TStr s => VStr s | _ => VObject 0 end.
Definition raw_factor (fs : factor_spec) : pyval :=
  VDict ([(VStr "measurements", VList (map strings (fs_measurements fs)));
          (VStr "transition_function", raw_transition (fs_transition fs))]
         ++ opt_item "normalizations" (option_map raw_norm (fs_norm fs))).
Definition raw_anch (a : anchoring_spec) : pyval :=
  VDict (opt_item "outcomes" (option_map (fun d => VDict (map (fun kv => (VStr (fst kv), VStr (snd kv))) d)) (as_outcomes a))
         ++ opt_item "free_controls" (option_map VBool (as_free_controls a))
         ++ opt_item "free_constant" (option_map VBool (as_free_constant a))
         ++ opt_item "free_loadings" (option_map VBool (as_free_loadings a))
         ++ opt_item "ignore_constant_when_anchoring" (option_map VBool (as_ignore_constant a))).
Definition raw_options (o : options_spec) : pyval :=
  VDict (opt_item "n_mixtures" (option_map (fun n => VInt (Z.of_nat n)) (os_n_mixtures o))
         ++ opt_item "sigma_points_scale" (option_map VFloat (os_sigma_points_scale o))).
Definition raw_of (md : model_dict) : raw_model :=
  mk_raw (Some (VDict (map (fun fd => (VStr (fst fd), raw_factor (snd fd))) (md_factors md))))
         (option_map strings (md_observed md)) (option_map strings (md_controls md)) (md_stagemap md)
         (option_map raw_anch (md_anchoring md)) (option_map raw_options (md_options md)).

(** What is handed on for a typed specification. *)
Definition raw_of_dims (d : dims) : raw_dims :=
  mk_raw_dims (n_latent d) (n_observed d) (n_periods d) (n_controls d) (VInt (Z.of_nat (n_mixtures d))).
Definition raw_of_labels (l : labels) : raw_labels :=
  mk_raw_labels (map VStr (l_latent l)) (map VStr (l_observed l)) (map VStr (l_controls l))
    (l_periods l) (l_stagemap l) (l_stages l).
Definition raw_of_anchinfo (a : anchinfo) : raw_anchinfo :=
  mk_raw_anchinfo (VBool (a_anchoring a)) (VDict (map (fun kv => (VStr (fst kv), VStr (snd kv))) (a_outcomes a)))
    (map VStr (a_factors a)) (VBool (a_free_controls a)) (VBool (a_free_constant a)) (VBool (a_free_loadings a)).
