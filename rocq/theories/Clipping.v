(** Model of skillmodels/clipping.py, elementwise. *)
Require Import Reals.
From Verif Require Import Kalman.
Open Scope R_scope.

(** logsumexp over the two columns of [column_stack] (clipping.py:37-41, 43-47) *)
Definition logsumexp2 (a b : R) : R :=
  logsumexp 2 (fun k => match k with O => a | _ => b end).

(** clipping.py:5-48 [soft_clipping], one entry of the array. *)
Definition soft_clip (lower upper : option R) (lower_hardness upper_hardness x : R) : R :=
  let y := match lower with
           | Some l => logsumexp2 (lower_hardness * x) (lower_hardness * l) / lower_hardness
           | None => x
           end in
  match upper with
  | Some u => - logsumexp2 (upper_hardness * - y) (upper_hardness * - u) / upper_hardness
  | None => y
  end.
