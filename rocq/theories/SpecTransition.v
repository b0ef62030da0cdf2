(** What the words of properties C57 - C59 mean: the documented transition functions
    in terms of named coefficients and named factors. *)
Require Import Reals String List.
From Verif Require Import PyBase ModelSpec SpecModel SpecIndex.
Import ListNotations.
Open Scope R_scope.

Fixpoint sum_of {A} (l : list A) (f : A -> R) : R :=
  match l with [] => 0 | x :: l' => f x + sum_of l' f end.

Section Formulas.
  (** All factors, the coefficient with a given name, the state of a given factor. *)
  Variables (all : list string) (beta state : string -> R).

  Definition linear_part : R := sum_of all (fun f => beta f * state f).
  Definition square_part : R :=
    sum_of all (fun f => beta (f ++ " ** 2")%string * (state f * state f)).
  Definition interaction_part : R :=
    sum_of (pairs_in_order all)
      (fun ab => beta (fst ab ++ " * " ++ snd ab)%string * (state (fst ab) * state (snd ab))).

  Definition linear_formula : R := linear_part + beta "constant".
  Definition squares_formula : R := linear_part + square_part + beta "constant".
  Definition translog_formula : R :=
    linear_part + square_part + interaction_part + beta "constant".
  Definition log_ces_formula : R :=
    ln (sum_of all (fun f => beta f * exp (beta "phi" * state f))) / beta "phi".
  Definition log_ces_general_formula : R :=
    beta "tfp" * ln (sum_of all (fun f => beta f * exp (beta ("sigma_" ++ f)%string * state f))).

  (** Shares: not negative and not all zero. *)
  Definition shares : Prop :=
    (forall f, In f all -> 0 <= beta f) /\ exists f, In f all /\ 0 < beta f.
End Formulas.

(** The value clipped to the interval from -10^12 to 10^12. *)
Definition clipped (x : R) : R :=
  if Rlt_dec x (- IZR (10 ^ 12)) then - IZR (10 ^ 12)
  else if Rlt_dec (IZR (10 ^ 12)) x then IZR (10 ^ 12) else x.

(** [y] is the documented next state of the factor [own] if its transition function
    is [s]. *)
Inductive documented (all : list string) (beta state : string -> R) (own : string)
  : string -> R -> Prop :=
| doc_linear : documented all beta state own "linear" (linear_formula all beta state)
| doc_translog : documented all beta state own "translog" (translog_formula all beta state)
| doc_robust : documented all beta state own "robust_translog"
                 (translog_formula all beta (fun f => clipped (state f)))
| doc_squares : documented all beta state own "linear_and_squares" (squares_formula all beta state)
| doc_log_ces : shares all beta ->
    documented all beta state own "log_ces" (log_ces_formula all beta state)
| doc_log_ces_general : shares all beta ->
    documented all beta state own "log_ces_general" (log_ces_general_formula all beta state)
| doc_constant : documented all beta state own "constant" (state own).
