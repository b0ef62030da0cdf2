(** Vocabulary for the properties of parameter parsing: which value a vector of
    parameters gives to a label, and the list of equations of a model. *)
Require Import String Arith List.
From Verif Require Import PyBase ModelSpec SpecModel SpecIndex ParamsIndex.
Import ListNotations.
Open Scope string_scope.
Open Scope list_scope.
Open Scope nat_scope.

(** [x] is the entry of [vec] at the position of label [lb] in [idx]. *)
Definition labelled {A} (idx : list label) (vec : list A) (lb : label) (x : A) : Prop :=
  exists i, nth_error idx i = Some lb /\ nth_error vec i = Some x.

Definition equation_eq_dec (a b : nat * string) : {a = b} + {a <> b}.
Proof. decide equality; [apply string_dec | apply Nat.eq_dec]. Defined.

(** The equations of a model with [n] periods: every (period, variable) pair that
    is written down, once, in the order of first appearance. *)
Definition equations (md : model_dict) (n : nat) : list (nat * string) :=
  first_appearances equation_eq_dec (written_equations md n).

(** Entry [j] of a row of an array. *)
Definition entry {A} (m : list (list A)) (i j : nat) (x : A) : Prop :=
  exists row, nth_error m i = Some row /\ nth_error row j = Some x.

Definition shape {A} (m : list (list A)) (n k : nat) : Prop :=
  length m = n /\ forall row, In row m -> length row = k.

(** Anchoring is set up without conflicts: the anchored factors are latent
    factors, and no name of an anchoring equation is used twice or for a
    measurement. *)
Definition clean_anchoring (md : model_dict) : Prop :=
  (forall f o, In (f, o) (outcomes_of md) -> In f (latent_of md)) /\
  NoDup (map (fun fo => snd fo ++ "_" ++ fst fo)%string (outcomes_of md)) /\
  (forall p f o g, In (f, o) (outcomes_of md) -> ~ measures md p g (o ++ "_" ++ f)%string).

(** The anchored factors are listed in the order of the latent factors. *)
Definition anchored_in_order (md : model_dict) : Prop :=
  map fst (outcomes_of md)
  = filter (fun f => existsb (String.eqb f) (map fst (outcomes_of md))) (latent_of md).

Definition ignores_constant (md : model_dict) : bool :=
  match md_anchoring md with
  | Some a => match as_ignore_constant a with Some b => b | None => false end
  | None => false
  end.
