(** What the words of properties C81 - C85 mean. *)
Require Import Reals String Arith ZArith Bool List Permutation Sorted.
From Verif Require Import PyBase ModelSpec ProcessModel CheckModel SpecModel SpecParse SpecIndex
  ParamsIndex ParseParams ProcessData SpecData Likelihood SpecLikelihood SpecTransition DebugData SpecDebug
  TransitionPlots.
Import ListNotations.
Open Scope string_scope.
Open Scope list_scope.
Open Scope nat_scope.

(** ** Numbers *)

(** [v] is the [q]-quantile of the numbers [xs]: with the numbers in ascending order and
    n - 1 steps between them, the value after q * (n - 1) steps, linearly interpolated. *)
Definition is_quantile (xs : list R) (q v : R) : Prop :=
  exists ys k a, Permutation xs ys /\ StronglySorted Rle ys /\ nth_error ys k = Some a /\
    let h := (q * (INR (length ys) - 1))%R in
    (INR k <= h < INR k + 1)%R /\
    ((h = INR k /\ v = a) \/
     exists b, nth_error ys (S k) = Some b /\ v = (a + (h - INR k) * (b - a))%R).

(** The [k]-th of [n] equally spaced numbers from [lo] to [hi]. *)
Definition spaced (lo hi : R) (n k : nat) (x : R) : Prop :=
  (k = 0 -> x = lo) /\ (S k = n -> 1 < n -> x = hi) /\
  (1 < n -> x = (lo + (hi - lo) * (INR k / INR (n - 1)))%R).

(** ** Values of the factors in a period *)

(** The numbers in a list. *)
Definition numbers (l : list (option R)) : list R :=
  flat_map (fun x => match x with Some x => [x] | None => [] end) l.

Section Values.
  Variables (md : model_dict) (ar : arrays R) (states : table) (t : nat).

  (** The distribution of a factor in period [t]: the states of the latent factors in a
      table, the values of the observed factors as the filter gets them (see C29). *)
  Inductive period_values : string -> list R -> Prop :=
  | latent_values g : In g (latent_of md) ->
      period_values g (numbers (map number_of (cells_of_period states t g)))
  | observed_values g j : nth_error (observed_of md) j = Some g ->
      period_values g (numbers (map (fun row => nth j row None) (nth t (ar_observed ar) []))).

  (** The value of a factor for individual number [i]. *)
  Inductive individual_value (i : nat) : string -> R -> Prop :=
  | latent_value g row x : In g (latent_of md) -> In row (tb_rows states) ->
      row "period" = CInt t -> row "id" = CInt i -> row g = CNum x -> individual_value i g x
  | observed_value g j row x : nth_error (observed_of md) j = Some g ->
      nth_error (nth t (ar_observed ar) []) i = Some row -> nth j row None = Some x ->
      individual_value i g x.
End Values.

(** The limits of an axis: those of the user or the minimum and maximum of the values. *)
Definition axis_limits (ranges : option state_ranges) (xs : list R) (t : nat) (factor : string)
    (lo hi : R) : Prop :=
  match ranges with
  | None => In lo xs /\ In hi xs /\ forall x, In x xs -> (lo <= x <= hi)%R
  | Some r => exists rows, dget r factor = Some rows /\ NoDup (map fst rows) /\
                           In (t, (Some lo, Some hi)) rows
  end.

(** ** Transition equations *)

(** [y] is the state of factor [o] in period [t + 1] according to its transition equation
    if the factors have the values [state] in period [t]. *)
Definition next_value (md : model_dict) (custom : string -> dict R -> dict R -> list R -> result R)
    (params : list (label * R)) (t : nat) (o : string) (state : string -> R) (y : R) : Prop :=
  exists fs, In (o, fs) (md_factors md) /\
  let all := latent_of md ++ observed_of md in
  forall beta,
    (forall name, In name (transition_parameters all (fs_transition fs)) ->
       has_value params (CTransition, t, o, name) (beta name)) ->
    (forall s y', fs_transition fs = TStr s -> documented all beta state o s y' -> y = y') /\
    (forall fn names, fs_transition fs = TFun fn (Some names) ->
       exists args env,
         (forall name, In name names -> dget args name = Some (beta name)) /\
         (forall g, In g all -> dget env g = Some (state g)) /\
         custom o args env (map state all) = Ok y).

(** The points of a curve: the input [i] takes [n] equally spaced values between [lo] and
    [hi], the output is [f] of the input. *)
Definition is_curve (lo hi : R) (n : nat) (f : R -> R -> Prop) (curve : list (R * R)) : Prop :=
  length curve = n /\
  forall k x y, nth_error curve k = Some (x, y) -> spaced lo hi n k x /\ f x y.

(** The next value of [o] if [i] is [x] and the other factors have given values. *)
Definition next_value_at md custom params t o i (other : string -> R -> Prop) (x y : R) : Prop :=
  let fits (state : string -> R) := state i = x /\
    forall g, In g (latent_of md ++ observed_of md) -> g <> i -> other g (state g) in
  (exists state, fits state) /\
  forall state, fits state -> next_value md custom params t o state y.

(** ** The setting of C51: the states can be filtered and anchored *)
Definition filter_setting (md : model_dict) (p : processed) (n : nat) (df : frame R) (ids lv : list Z)
    (ar : arrays R) (vec : list R) (ps : parsed R) (params : list (label * R)) : Prop :=
  likelihood_setting md p n df ids lv ar vec ps /\ complete_params p params /\
  (forall lb x, labelled (params_index_of p) vec lb x -> has_value params lb x) /\
  every_period_has_measurement md n /\
  (forall name, In name ["period"; "id"] -> ~ In name (latent_of md ++ observed_of md)) /\
  clean_anchoring md /\ anchored_in_order md /\ ids <> [].

(** The user gives limits for all factors or none at all. *)
Definition ranges_given (md : model_dict) (ranges : option state_ranges) (t : nat) : Prop :=
  forall r g, ranges = Some r -> In g (latent_of md ++ observed_of md) ->
    exists rows lo hi, dget r g = Some rows /\ NoDup (map fst rows) /\ In (t, (Some lo, Some hi)) rows.
