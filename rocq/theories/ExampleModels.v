(** Concrete specifications used to show that hypotheses of theorems are met. *)
Require Import String ZArith QArith List.
From Verif Require Import PyBase ModelSpec ProcessModel CheckModel.
Import ListNotations.
Open Scope string_scope.
Open Scope list_scope.

(** skillmodels/tests/model2.yaml *)
Definition model2 : model_dict :=
  mk_md
    [("fac1", mk_factor (repeat ["y1"; "y2"; "y3"] 8) (TStr "log_ces")
                (Some (mk_norm (Some (repeat [("y1", 1%Q)] 8)) None)));
     ("fac2", mk_factor (repeat ["y4"; "y5"; "y6"] 8) (TStr "linear")
                (Some (mk_norm (Some (repeat [("y4", 1%Q)] 8)) None)));
     ("fac3", mk_factor [["y7"; "y8"; "y9"]] (TStr "constant")
                (Some (mk_norm (Some [[("y7", 1%Q)]]) None)))]
    None
    (Some ["x1"])
    (Some [0; 0; 0; 0; 0; 0; 0]%Z)
    (Some (mk_anch (Some [("fac1", "Q1")]) (Some true) (Some true) (Some true) (Some true)))
    (Some (mk_opts (Some 1%nat) None (Some true) (Some (1 # 1000)) None None None None)).

(** A small model with two mixture elements, a measurement shared by two
    factors, an observed factor, a control, two anchored factors, a custom
    transition function and normalized intercepts. *)
Definition small_model : model_dict :=
  mk_md
    [("cog", mk_factor [["a"; "s"]; ["a"]; ["a"; "b"]] (TStr "translog")
               (Some (mk_norm (Some [[("a", 1%Q)]; [("a", 1%Q)]; [("a", 1%Q)]])
                              (Some [[("a", 0%Q)]]))));
     ("soc", mk_factor [["s"; "c"]; ["c"]] (TFun (Some "mine") (Some ["p"; "q"]))
               (Some (mk_norm (Some [[("c", 1%Q)]; [("c", 2%Q)]]) None)))]
    (Some ["inc"])
    (Some ["x1"])
    (Some [0; 1]%Z)
    (Some (mk_anch (Some [("cog", "Q1"); ("soc", "Q2")]) None (Some true) (Some true) None))
    (Some (mk_opts (Some 2%nat) None None None None None None None)).

(** A model with repeated stages, a log_ces transition, a measurement shared by
    both factors and restricted anchoring equations with a control. *)
Definition stage_model : model_dict :=
  mk_md
    [("cog", mk_factor [["a"; "s"]; ["a"; "b"]; ["a"]; ["b"]] (TStr "log_ces")
               (Some (mk_norm (Some [[("a", 1%Q)]; [("a", 1%Q)]]) (Some [[("s", 2%Q)]]))));
     ("soc", mk_factor [["s"; "c"]; ["c"]; ["c"]; ["c"]] (TStr "linear")
               (Some (mk_norm (Some [[("c", 1%Q)]; [("c", 3%Q)]]) (Some [[("s", 2%Q)]]))))]
    (Some ["inc"])
    (Some ["x1"; "x2"])
    (Some [0; 0; 1]%Z)
    (Some (mk_anch (Some [("cog", "Q1"); ("soc", "Q1")]) None None None None))
    (Some (mk_opts (Some 2%nat) None None None None None None None)).

Definition is_ok {A} (r : result A) : bool := match r with Ok _ => true | Err _ => false end.

Definition get_ok {A} (r : result A) (default : A) : A :=
  match r with Ok a => a | Err _ => default end.
