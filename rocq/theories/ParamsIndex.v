(** Model of skillmodels/params_index.py. *)
Require Import String Arith Bool List.
From Verif Require Import PyBase ModelSpec ProcessModel CheckModel.
Import ListNotations.
Open Scope string_scope.
Open Scope list_scope.
Open Scope nat_scope.

(** First level of the params index. *)
Inductive cat :=
| CControls | CLoadings | CMeasSds | CShockSds | CInitStates | CMixWeights
| CInitChol | CTransition.

(** An entry of the index: (category, period, name1, name2), params_index.py:37-39. *)
Definition label := (cat * nat * string * string)%type.

Definition lb_cat (l : label) : cat := fst (fst (fst l)).
Definition lb_period (l : label) : nat := snd (fst (fst l)).
Definition lb_name1 (l : label) : string := snd (fst l).
Definition lb_name2 (l : label) : string := snd l.

(** f"mixture_{emf}" *)
Definition mixture_name (emf : nat) : string := ("mixture_" ++ str_nat emf)%string.

(** f"{factor1}-{factor2}" *)
Definition cov_name (f1 f2 : string) : string := (f1 ++ "-" ++ f2)%string.

(** params_index.py:43-57 [get_control_params_index_tuples]. *)
Definition control_labels (controls : list string) (u : list urow) : list label :=
  flat_map (fun r => map (fun c => (CControls, u_period r, u_var r, c)) controls) u.

(** params_index.py:60-77 [get_loadings_index_tuples]. *)
Definition loading_labels (factors : list string) (u : list urow) : list label :=
  flat_map (fun r =>
    flat_map (fun f => if u_flag r f then [(CLoadings, u_period r, u_var r, f)] else [])
      factors) u.

(** params_index.py:80-94 [get_meas_sds_index_tuples]. *)
Definition meas_sd_labels (u : list urow) : list label :=
  map (fun r => (CMeasSds, u_period r, u_var r, "-")) u.

(** params_index.py:97-112 [get_shock_sds_index_tuples]. *)
Definition shock_sd_labels (periods : list nat) (factors : list string) : list label :=
  flat_map (fun p => map (fun f => (CShockSds, p, f, "-")) factors) (drop_last periods).

(** params_index.py:115-130 [initial_mean_index_tuples]. *)
Definition initial_mean_labels (n_mix : nat) (factors : list string) : list label :=
  flat_map (fun e => map (fun f => (CInitStates, 0, mixture_name e, f)) factors)
    (range n_mix).

(** params_index.py:133-146 [get_mixture_weights_index_tuples]. *)
Definition mixture_weight_labels (n_mix : nat) : list label :=
  map (fun e => (CMixWeights, 0, mixture_name e, "-")) (range n_mix).

(** params_index.py:149-173 [get_initial_cholcovs_index_tuples]. *)
Definition initial_chol_labels (n_mix : nat) (factors : list string) : list label :=
  flat_map (fun e =>
    flat_map (fun rf =>
      flat_map (fun cf =>
        if fst cf <=? fst rf
        then [(CInitChol, 0, mixture_name e, cov_name (snd rf) (snd cf))] else [])
      (enumerate factors)) (enumerate factors)) (range n_mix).

(** params_index.py:176-194 [get_transition_index_tuples]. *)
Definition transition_labels (param_names : dict (list string)) (periods : list nat)
  : list label :=
  flat_map (fun fn =>
    flat_map (fun p => map (fun n => (CTransition, p, fst fn, n)) (snd fn))
      (drop_last periods)) param_names.

(** params_index.py:4-40 [get_params_index]. *)
Definition get_params_index (u : list urow) (l : labels) (d : dims) (t : trans_info)
  : list label :=
  control_labels (l_controls l) u
  ++ loading_labels (l_latent l) u
  ++ meas_sd_labels u
  ++ shock_sd_labels (l_periods l) (l_latent l)
  ++ initial_mean_labels (n_mixtures d) (l_latent l)
  ++ mixture_weight_labels (n_mixtures d)
  ++ initial_chol_labels (n_mixtures d) (l_latent l)
  ++ transition_labels (t_param_names t) (l_periods l).

(** The call in likelihood_function.py:53-58 and utilities.py:310-318. *)
Definition params_index_of (p : processed) : list label :=
  get_params_index (p_update p) (p_labels p) (p_dims p) (p_tinfo p).
