(** Model of skillmodels/constraints.py. *)
Require Import String Ascii Arith ZArith QArith Bool List.
From Verif Require Import PyBase ModelSpec ProcessModel CheckModel ParamsIndex.
Import ListNotations.
Open Scope string_scope.
Open Scope list_scope.
Open Scope nat_scope.

(** The values of "loc" / "locs" that occur: a category, a (category, period)
    pair, a single label or a list of labels. *)
Inductive selector :=
| SCat (c : cat)
| SCatPeriod (c : cat) (p : nat)
| SLabel (lb : label)
| SLabels (lbs : list label).

(** The values of "value": a scalar or a list. *)
Inductive fixed_value := VScalar (q : Q) | VList (qs : list Q).

(** The constraint types that occur (the description is left out). *)
Inductive constr_body :=
| CFixed (loc : selector) (v : fixed_value)
| CProbability (loc : selector)
| CPairwiseEquality (locs : list selector)
| CIncreasing (loc : selector).

Record constraint := mk_constr { c_body : constr_body; c_id : nat }.

(** constraints.py:90-133 [_get_normalization_constraints]. The branch for
    "variances" cannot be reached with processed normalizations. *)
Definition normalization_pairs (norms_ : dict norms) (factors : list string)
    (periods : list nat) : list (label * Q) :=
  flat_map (fun f =>
    match dget norms_ f with
    | None => []
    | Some nm =>
        flat_map (fun p =>
          map (fun mv => ((CLoadings, p, fst mv, f), snd mv)) (nth p (nm_loadings nm) [])
          ++ map (fun mv => ((CControls, p, fst mv, "constant"), snd mv))
                 (nth p (nm_intercepts nm) [])) periods
    end) factors.

Definition normalization_constraints (norms_ : dict norms) (factors : list string)
  : list constr_body :=
  let periods :=
    match factors with
    | f0 :: _ => match dget norms_ f0 with
                 | Some nm => range (length (nm_loadings nm))
                 | None => []
                 end
    | [] => []
    end in
  match normalization_pairs norms_ factors periods with
  | [] => []
  | ps => [CFixed (SLabels (map fst ps)) (VList (map snd ps))]
  end.

(** constraints.py:136-150 [_get_mixture_weights_constraints]. *)
Definition mixture_weights_constraints (n_mix : nat) : list constr_body :=
  if n_mix =? 1 then [CFixed (SCat CMixWeights) (VScalar 1)]
  else [CProbability (SCat CMixWeights)].

(** constraints.py:168-170: the periods of each stage. *)
Definition stage_periods (stagemap : list Z) (stage : Z) : list nat :=
  map fst (filter (fun ps => Z.eqb (snd ps) stage) (enumerate stagemap)).

(** constraints.py:153-191 [_get_stage_constraints]. *)
Definition stage_constraints (stagemap stages : list Z) : list constr_body :=
  flat_map (fun stage =>
    let ps := stage_periods stagemap stage in
    if 1 <? length ps
    then [CPairwiseEquality (map (SCatPeriod CTransition) ps);
          CPairwiseEquality (map (SCatPeriod CShockSds) ps)]
    else []) stages.

(** constraints.py:194-218 [_get_constant_factors_constraints]. *)
Definition constant_factors_constraints (latent tnames : list string)
    (periods : list nat) : list constr_body :=
  flat_map (fun ft =>
    if String.eqb (snd ft) "constant"
    then map (fun p => CFixed (SLabel (CShockSds, p, fst ft, "-")) (VScalar 0))
             (drop_last periods)
    else []) (combine latent tnames).

(** constraints.py:221-249 [_get_initial_states_constraints]. *)
Definition initial_states_constraints (n_mix : nat) (factors : list string)
  : list constr_body :=
  if 1 <? n_mix
  then [CIncreasing (SLabels
         (map (fun e => (CInitStates, 0, mixture_name e, nth 0 factors "")) (range n_mix)))]
  else [].

(** transition_functions.py:103-106 [constraints_log_ces]: names[:-1] are the
    factors. *)
Definition constraints_log_ces (factor : string) (factors : list string) (period : nat)
  : constr_body :=
  CProbability (SLabels (map (fun n => (CTransition, period, factor, n))
                             (drop_last (params_log_ces factors)))).

(** constraints.py:252-275 [_get_transition_constraints]; the only function in
    transition_functions.py called constraints_* is constraints_log_ces. *)
Definition transition_constraints (latent all_factors tnames : list string)
    (periods : list nat) : list constr_body :=
  flat_map (fun ft =>
    if String.eqb (snd ft) "log_ces"
    then map (fun p => constraints_log_ces (fst ft) all_factors p) (drop_last periods)
    else []) (combine latent tnames).

(** constraints.py:278-338 [_get_anchoring_constraints]. *)
Definition anchoring_constraints (u : list urow) (controls : list string)
    (a : anchinfo) (periods : list nat) : list constr_body :=
  let anchoring_updates :=
    filter (fun r => match u_purpose r with Some PAnchoring => true | _ => false end) u in
  let fixed locs v := match locs with [] => [] | _ => [CFixed (SLabels locs) (VScalar v)] end in
  (if negb (a_free_constant a)
   then fixed (map (fun r => (CControls, u_period r, u_var r, "constant")) anchoring_updates) 0%Q
   else [])
  ++ (if negb (a_free_controls a)
      then fixed (flat_map (fun r =>
             map (fun c => (CControls, u_period r, u_var r, c))
                 (filter (fun c => negb (String.eqb c "constant")) controls))
             anchoring_updates) 0%Q
      else [])
  ++ (if negb (a_free_loadings a)
      then fixed (flat_map (fun p =>
             map (fun fo => (CLoadings, p, anchoring_name (snd fo) (fst fo), fst fo))
                 (a_outcomes a)) periods) 1%Q
      else []).

(** constraints.py:9-45 [get_constraints]. *)
Definition constraint_bodies (p : processed) : list constr_body :=
  let l := p_labels p in
  let d := p_dims p in
  normalization_constraints (p_norms p) (l_latent l)
  ++ mixture_weights_constraints (n_mixtures d)
  ++ stage_constraints (l_stagemap l) (l_stages l)
  ++ constant_factors_constraints (l_latent l) (p_transition_names p) (l_periods l)
  ++ initial_states_constraints (n_mixtures d) (l_latent l)
  ++ transition_constraints (l_latent l) (l_all l) (p_transition_names p) (l_periods l)
  ++ anchoring_constraints (p_update p) (l_controls l) (p_anch p) (l_periods l).

Definition get_constraints (p : processed) : list constraint :=
  map (fun ic => mk_constr (snd ic) (fst ic)) (enumerate (constraint_bodies p)).

(** constraints.py:76-87 [_is_diagonal_entry]. *)
Definition is_diagonal_entry (lb : label) : bool :=
  let name2 := lb_name2 lb in
  let middle_pos := String.length name2 / 2 in
  if String.length name2 mod 2 =? 0 then false
  else match String.get middle_pos name2 with
       | Some c =>
           if negb (Ascii.eqb c "-"%char) then false
           else if negb (String.eqb (String.substring 0 middle_pos name2)
                          (String.substring (middle_pos + 1)
                             (String.length name2 - (middle_pos + 1)) name2)) then false
           else true
       | None => false
       end.

(** constraints.py:48-73 [add_bounds]: the lower bound of each row of a params
    DataFrame, [None] is -inf. Applied to a template without bounds. *)
Definition is_cat (c : cat) (lb : label) : bool :=
  match c, lb_cat lb with
  | CControls, CControls | CLoadings, CLoadings | CMeasSds, CMeasSds
  | CShockSds, CShockSds | CInitStates, CInitStates | CMixWeights, CMixWeights
  | CInitChol, CInitChol | CTransition, CTransition => true
  | _, _ => false
  end.

Definition add_bounds (rows : list (label * option Q)) (bounds_distance : Q)
  : list (label * option Q) :=
  let set (P : label -> bool) rs :=
    map (fun r => if P (fst r) then (fst r, Some bounds_distance) else r) rs in
  set (fun lb => is_cat CInitChol lb && is_diagonal_entry lb)
    (set (is_cat CShockSds) (set (is_cat CMeasSds) rows)).

(** likelihood_function.py:157-160: the params template. *)
Definition params_template (p : processed) : list (label * option Q) :=
  add_bounds (map (fun lb => (lb, None)) (params_index_of p))
             (o_bounds_distance (p_options p)).
