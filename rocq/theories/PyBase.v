(** Primitives shared by the model: Python results, dictionaries, lists.

    Simplification (applies to the whole model): Python exceptions are values
    of type [result]; only the exception class is kept, not its message. *)
Require Import String Ascii Arith ZArith Bool DecimalString DecimalNat List.
Import ListNotations.
Open Scope string_scope.
Open Scope list_scope.

(** Exception classes that the modelled code can raise. [ShapeError] stands for
    the errors of numpy / jax when shapes do not match, [DagError] for the error
    the dags library raises when a target is missing, [OtherError] for errors of
    other third party code. *)
Inductive pyerr :=
| KeyError | ValueError | TypeError | AssertionError | IndexError | AttributeError
| ShapeError | DagError | NameError | OtherError.

Inductive result (A : Type) :=
| Ok (a : A)
| Err (e : pyerr).
Arguments Ok {A} a.
Arguments Err {A} e.

Definition rbind {A B} (m : result A) (k : A -> result B) : result B :=
  match m with Ok a => k a | Err e => Err e end.

Notation "'do' x <- m ; k" := (rbind m (fun x => k))
  (at level 200, x name, m at level 100, k at level 200, right associativity).

Definition rmap {A B} (f : A -> B) (m : result A) : result B :=
  match m with Ok a => Ok (f a) | Err e => Err e end.

(** A loop that may raise in each iteration ([for x in l: ...append(f x)]). *)
Fixpoint mapM {A B} (f : A -> result B) (l : list A) : result (list B) :=
  match l with
  | [] => Ok []
  | x :: l' => do y <- f x; do ys <- mapM f l'; Ok (y :: ys)
  end.

(** Python dictionaries with string keys: association lists in insertion order.
    Keys of a real dictionary are distinct. *)
Definition dict (V : Type) := list (string * V).

Fixpoint dget {V} (d : dict V) (k : string) : option V :=
  match d with
  | [] => None
  | (k', v) :: d' => if String.eqb k k' then Some v else dget d' k
  end.

Definition dkeys {V} (d : dict V) : list string := map fst d.
Definition dvalues {V} (d : dict V) : list V := map snd d.

(** [d[k]] with the KeyError of Python. *)
Definition dget_err {V} (d : dict V) (k : string) : result V :=
  match dget d k with Some v => Ok v | None => Err KeyError end.

(** [s in l] for a list of strings. *)
Definition smem (s : string) (l : list string) : bool := existsb (String.eqb s) l.

(** [l[i]] with the IndexError of Python for [i >= len(l)]. *)
Definition nth_err {A} (l : list A) (i : nat) : result A :=
  match nth_error l i with Some a => Ok a | None => Err IndexError end.

(** f"{n}" for a natural number. *)
Definition str_nat (n : nat) : string := NilZero.string_of_uint (Nat.to_uint n).

(** [range(n)] *)
Definition range (n : nat) : list nat := seq 0 n.

(** [itertools.combinations(l, 2)] *)
Fixpoint combinations2 {A} (l : list A) : list (A * A) :=
  match l with
  | [] => []
  | x :: l' => map (fun y => (x, y)) l' ++ combinations2 l'
  end.

(** [l[:-1]] *)
Definition drop_last {A} (l : list A) : list A := removelast l.

(** [enumerate(l)] *)
Definition enumerate {A} (l : list A) : list (nat * A) := combine (seq 0 (length l)) l.

(** [max(l)] of a list of natural numbers: ValueError if empty. *)
Definition py_max (l : list nat) : result nat :=
  match l with
  | [] => Err ValueError
  | x :: l' => Ok (fold_left Nat.max l' x)
  end.

(** [arr.reshape(-1, k)] and [arr.reshape(n, -1)] of a flat array, see
    [ParseParams]: cut into rows of length [k]. *)
Fixpoint chunks_aux {A} (fuel : nat) (k : nat) (l : list A) : list (list A) :=
  match fuel with
  | 0 => []
  | S fuel' => firstn k l :: chunks_aux fuel' k (skipn k l)
  end.

(** The first [n] rows of length [k] of a flat array. *)
Definition chunks {A} (n k : nat) (l : list A) : list (list A) := chunks_aux n k l.
