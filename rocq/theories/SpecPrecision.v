(** What the words of property C104 mean: models with linear dynamics and data sets in
    which more is observed. *)
Require Import Reals Qreals String Arith ZArith Bool List.
From Verif Require Import PyBase ModelSpec ProcessModel CheckModel SpecModel SpecParse SpecData
  SpecIndex ParamsIndex ParseParams ProcessData RSum Kalman SpecKalman Clipping Likelihood SpecLikelihood SpecUnits.
Import ListNotations.
Open Scope R_scope.

(** Every factor is constant or has a linear production function. Anchoring is allowed. *)
Definition linear_dynamics (md : model_dict) : Prop :=
  forall f fs, In (f, fs) (md_factors md) -> fs_transition fs = TStr "linear" \/ fs_transition fs = TStr "constant".

(** The standard deviations of the measurements and the loadings of the anchoring
    equations are not zero. *)
Definition noisy_equations (md : model_dict) (n : nat) (val : label -> R) : Prop :=
  (forall t v, In (t, v) (equations md n) -> val (CMeasSds, t, v, "-"%string) <> 0) /\
  forall t f o, (t < n)%nat -> In (f, o) (outcomes_of md) -> val (CLoadings, t, (o ++ "_" ++ f)%string, f) <> 0.

(** Every measurement that is used in the first data set is used in the second one; the
    values may differ. *)
Definition more_observed (md : model_dict) (n : nat) (ids : list Z) (df : frame R) (lv : list Z) (df' : frame R) (lv' : list Z) : Prop :=
  forall id t v, In id ids -> In (t, v) (equations md n) -> counts md n df lv id t v -> counts md n df' lv' id t v.

(** The standard deviations of the prediction errors are reported for the measurements that
    are used. In the second run they are at most those in the first run, and never smaller
    than the standard deviation of the measurement. *)
Definition more_precise (md : model_dict) (n : nat) (ids : list Z) (df : frame R) (lv : list Z) (df' : frame R) (lv' : list Z)
    (val : label -> R) (d d' : debug_output) : Prop :=
  forall i id k t v m, nth_error ids i = Some id -> nth_error (equations md n) k = Some (t, v) -> (m < n_mixtures_of md)%nat ->
    (counts md n df lv id t v ->
     exists s s', do_residual_sds d k i m = Some s /\ do_residual_sds d' k i m = Some s' /\
       Rabs (val (CMeasSds, t, v, "-"%string)) <= s' <= s) /\
    (~ counts md n df lv id t v -> do_residual_sds d k i m = None) /\
    (~ counts md n df' lv' id t v -> do_residual_sds d' k i m = None).
