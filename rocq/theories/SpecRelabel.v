(** Vocabulary for data sets with other identifiers and for pooled data sets. *)
Require Import String ZArith List.
From Verif Require Import PyBase ProcessData SpecData.
Import ListNotations.

(** The same observations in which individual [id] is called [phi id] and period [z] is
    called [psi z]. *)
Definition relabel {V} (phi psi : Z -> Z) (df : frame V) : frame V :=
  mk_frame (fr_columns df) (map phi (fr_id_level df)) (map psi (fr_period_level df))
    (map (fun r => mk_drow (phi (dr_id r)) (psi (dr_period r)) (dr_cells r)) (fr_rows df)).

(** Different individuals get different identifiers, in any order; the periods stay in
    their order. *)
Definition relabelling {V} (phi psi : Z -> Z) (df : frame V) : Prop :=
  (forall a b, In a (fr_id_level df) -> In b (fr_id_level df) -> phi a = phi b -> a = b) /\
  (forall a b, In a (fr_period_level df) -> In b (fr_period_level df) -> (a < b)%Z -> (psi a < psi b)%Z).

(** The observations of both data sets (pandas.concat of two frames). *)
Definition pool {V} (df df' : frame V) : frame V :=
  mk_frame (fr_columns df) (fr_id_level df ++ fr_id_level df') (fr_period_level df ++ fr_period_level df')
    (fr_rows df ++ fr_rows df').
