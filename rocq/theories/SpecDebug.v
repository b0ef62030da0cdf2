(** What the words of properties C48 - C51 mean. *)
Require Import Reals String Arith List.
From Verif Require Import PyBase ModelSpec CheckModel SpecModel SpecParse SpecIndex ParamsIndex RSum Kalman Likelihood
  SpecLikelihood DebugData.
Import ListNotations.
Open Scope string_scope.
Open Scope list_scope.
Open Scope nat_scope.

(** Equation [k] is the last measurement equation of period [t]. *)
Definition last_measurement_of (md : model_dict) (n t k : nat) : Prop :=
  (exists v, nth_error (equations md n) k = Some (t, v) /\ is_anchoring_equation md v = false) /\
  forall k' v', k < k' -> nth_error (equations md n) k' = Some (t, v') ->
    is_anchoring_equation md v' = true.

(** Every period has a measurement equation. *)
Definition every_period_has_measurement (md : model_dict) (n : nat) : Prop :=
  forall t, t < n -> exists v, In (t, v) (equations md n) /\ is_anchoring_equation md v = false.

(** The cells of a row that belongs to an individual and period: the average of the
    states in the mixture elements, weighted with the probabilities of the elements. *)
Definition shows_average (md : model_dict) (rec : record) (i : nat) (row : string -> cell) : Prop :=
  forall j f, nth_error (latent_of md) j = Some f ->
    row f = CNum (rsum (n_mixtures_of md) (fun m => exp (re_logw rec i m) * re_states rec i m j))%R.

(** A table with one row per period and individual, which shows the average state
    after the last measurement equation of the period. *)
Definition is_filtered_table (md : model_dict) (n n_obs : nat) (recs : list record) (tb : table) : Prop :=
  tb_columns tb = latent_of md ++ ["period"; "id"] /\
  length (tb_rows tb) = n * n_obs /\
  forall t i, t < n -> i < n_obs -> exists row k rec,
    nth_error (tb_rows tb) (t * n_obs + i) = Some row /\
    row "period" = CInt t /\ row "id" = CInt i /\
    last_measurement_of md n t k /\ nth_error recs k = Some rec /\ shows_average md rec i row.

(** The number [lo] ([hi]) is the minimum (maximum) of the numbers in a list of cells;
    it is missing if there are no numbers. *)
Definition in_cells (cells : list cell) (x : R) : Prop :=
  exists c, In c cells /\ number_of c = Some x.
Definition is_minimum (cells : list cell) (lo : option R) : Prop :=
  match lo with
  | Some a => in_cells cells a /\ forall x, in_cells cells x -> (a <= x)%R
  | None => forall x, ~ in_cells cells x
  end.
Definition is_maximum (cells : list cell) (hi : option R) : Prop :=
  match hi with
  | Some b => in_cells cells b /\ forall x, in_cells cells x -> (x <= b)%R
  | None => forall x, ~ in_cells cells x
  end.

(** The cells of a column in the rows of a period. *)
Definition cells_of_period (tb : table) (t : nat) (name : string) : list cell :=
  map (fun row => row name)
    (filter (fun row => match row "period" with CInt s => s =? t | _ => false end) (tb_rows tb)).

(** A params DataFrame has the value [x] for a label. *)
Definition has_value (params : list (label * R)) (lb : label) (x : R) : Prop := In (lb, x) params.

(** The anchoring parameters of factor [f] in period [t]: the loading of the factor and
    the constant in its anchoring equation. The loading is one and the constant zero if
    the factor is not anchored; the constant is also zero if constants are ignored. *)
Definition anchoring_parameters (md : model_dict) (params : list (label * R)) (t : nat) (f : string)
    (scale constant : R) : Prop :=
  (forall o, anchored md f o -> has_value params (CLoadings, t, o ++ "_" ++ f, f)%string scale) /\
  (forall o, anchored md f o -> ignores_constant md = false ->
     has_value params (CControls, t, o ++ "_" ++ f, "constant")%string constant) /\
  ((forall o, ~ anchored md f o) -> scale = 1%R) /\
  ((forall o, ~ anchored md f o) \/ ignores_constant md = true -> constant = 0%R).

(** The second table is the first one with anchored states: in the rows of period [t],
    a state x of a latent factor becomes constant + scale * x with the anchoring
    parameters of the period; nothing else changes. *)
Definition is_anchored_table (md : model_dict) (params : list (label * R)) (tb tb' : table) : Prop :=
  tb_columns tb' = tb_columns tb /\ length (tb_rows tb') = length (tb_rows tb) /\
  forall r row, nth_error (tb_rows tb) r = Some row -> exists row',
    nth_error (tb_rows tb') r = Some row' /\
    (forall c, ~ In c (latent_of md) -> row' c = row c) /\
    forall t f, row "period" = CInt t -> In f (latent_of md) ->
      exists scale constant, anchoring_parameters md params t f scale constant /\
        (row f = CNan -> row' f = CNan) /\
        forall x, number_of (row f) = Some x -> row' f = CNum (constant + scale * x)%R.

(** A params DataFrame without duplicates that has all parameters of the model. *)
Definition complete_params (p : processed) (params : list (label * R)) : Prop :=
  NoDup (map fst params) /\ forall lb, In lb (params_index_of p) -> In lb (map fst params).
