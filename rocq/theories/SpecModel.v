(** What the words of the properties mean for a model specification. Nothing
    here refers to the functions of the model, only to the typed specification. *)
Require Import String ZArith QArith List.
From Verif Require Import PyBase ModelSpec.
Import ListNotations.
Open Scope string_scope.
Open Scope list_scope.
Open Scope nat_scope.

(** Python dictionaries have distinct keys. *)
Definition wf_dicts (md : model_dict) : Prop :=
  NoDup (map fst (md_factors md)) /\
  (forall a o, md_anchoring md = Some a -> as_outcomes a = Some o -> NoDup (map fst o)).

(** [n] is the number of periods: the length of the longest measurement list. *)
Definition has_n_periods (md : model_dict) (n : nat) : Prop :=
  (exists f fs, In (f, fs) (md_factors md) /\ length (fs_measurements fs) = n) /\
  (forall f fs, In (f, fs) (md_factors md) -> length (fs_measurements fs) <= n).

(** The specification lists [v] as measurement of latent factor [f] in period [p]. *)
Definition measures (md : model_dict) (p : nat) (f v : string) : Prop :=
  exists fs ms, In (f, fs) (md_factors md) /\
                nth_error (fs_measurements fs) p = Some ms /\ In v ms.

(** The anchoring section maps factor [f] to outcome [o]. *)
Definition anchored (md : model_dict) (f o : string) : Prop :=
  exists a outs, md_anchoring md = Some a /\ as_outcomes a = Some outs /\ In (f, o) outs.

(** [v] is the name of the anchoring equation of factor [f] in period [p]:
    the outcome and the factor, joined by an underscore. *)
Definition anchors (md : model_dict) (p : nat) (f v : string) : Prop :=
  (exists n, has_n_periods md n /\ p < n) /\
  exists o, anchored md f o /\ v = (o ++ "_" ++ f)%string.

(** All measurement equations of the specification, period by period, in the
    order in which they are written down: first the measurements factor by
    factor, then the anchoring equations. *)
Definition written_equations (md : model_dict) (n : nat) : list (nat * string) :=
  flat_map (fun p =>
    map (fun v => (p, v))
      (flat_map (fun ffs => nth p (fs_measurements (snd ffs)) []) (md_factors md)
       ++ match md_anchoring md with
          | Some a => match as_outcomes a with
                      | Some outs => map (fun fo => (snd fo ++ "_" ++ fst fo)%string) outs
                      | None => []
                      end
          | None => []
          end)) (seq 0 n).

(** A list without its repeated entries, in the order of first appearance. *)
Fixpoint first_appearances {A} (eq_dec : forall x y : A, {x = y} + {x <> y}) (l : list A)
  : list A :=
  match l with
  | [] => []
  | x :: l' => x :: filter (fun y => if eq_dec x y then false else true)
                           (first_appearances eq_dec l')
  end.

(** The normalizations of factor [f] in period [p]. *)
Definition normalized_loading (md : model_dict) (p : nat) (f v : string) (q : Q) : Prop :=
  exists fs nm lds d, In (f, fs) (md_factors md) /\ fs_norm fs = Some nm /\
    ns_loadings nm = Some lds /\ nth_error lds p = Some d /\ In (v, q) d.

Definition normalized_intercept (md : model_dict) (p : nat) (f v : string) (q : Q) : Prop :=
  exists fs nm ics d, In (f, fs) (md_factors md) /\ fs_norm fs = Some nm /\
    ns_intercepts nm = Some ics /\ nth_error ics p = Some d /\ In (v, q) d.

(** A valid stage map for [n] periods: one stage per transition, starting with
    stage 0, each stage equal to the previous one or the next one. *)
Definition valid_stagemap (n : nat) (sm : list Z) : Prop :=
  1 <= n /\
  length sm = n - 1 /\
  (forall z, nth_error sm 0 = Some z -> z = 0%Z) /\
  (forall i a b, nth_error sm i = Some a -> nth_error sm (S i) = Some b ->
                 b = a \/ b = (a + 1)%Z).

(** The documented default: every transition is its own stage. *)
Definition stagemap_of (md : model_dict) (n : nat) : list Z :=
  match md_stagemap md with
  | Some sm => sm
  | None => map Z.of_nat (seq 0 (n - 1))
  end.

Definition controls_of (md : model_dict) : list string :=
  match md_controls md with Some c => c | None => [] end.

Definition observed_of (md : model_dict) : list string :=
  match md_observed md with Some o => o | None => [] end.

Definition latent_of (md : model_dict) : list string := map fst (md_factors md).

Definition n_mixtures_of (md : model_dict) : nat :=
  match md_options md with
  | Some o => match os_n_mixtures o with Some n => n | None => 1 end
  | None => 1
  end.

Definition outcomes_of (md : model_dict) : list (string * string) :=
  match md_anchoring md with
  | Some a => match as_outcomes a with Some o => o | None => [] end
  | None => []
  end.

(** Normalizations are valid: they name measurements of the factor in the period,
    loadings are not normalized to zero and there are no normalizations for
    periods beyond the last one. *)
Definition valid_normalizations (md : model_dict) (n : nat) : Prop :=
  (forall p f v q, normalized_loading md p f v q -> measures md p f v /\ ~ (q == 0)%Q) /\
  (forall p f v q, normalized_intercept md p f v q -> measures md p f v) /\
  (forall f fs nm l, In (f, fs) (md_factors md) -> fs_norm fs = Some nm ->
     ns_loadings nm = Some l \/ ns_intercepts nm = Some l -> length l <= n).

(** The implemented transition functions. *)
Definition known_transition_functions : list string :=
  ["linear"; "translog"; "log_ces"; "constant"; "robust_translog"; "linear_and_squares";
   "log_ces_general"].

(** A transition specification is valid if it names an implemented function or
    is a registered user function (a function with a name and parameter names). *)
Definition valid_transition (t : trans_spec) : Prop :=
  (exists s, t = TStr s /\ In s known_transition_functions) \/
  (exists n ps, t = TFun (Some n) (Some ps)).

(** The same specification with another stage map. *)
Definition with_stagemap (sm : option (list Z)) (md : model_dict) : model_dict :=
  mk_md (md_factors md) (md_observed md) (md_controls md) sm (md_anchoring md) (md_options md).

(** The same specification with every measurement list padded to [n] periods. *)
Definition pad_measurements (n : nat) (md : model_dict) : model_dict :=
  mk_md (map (fun ffs => (fst ffs,
                mk_factor (fs_measurements (snd ffs)
                             ++ repeat [] (n - length (fs_measurements (snd ffs))))
                          (fs_transition (snd ffs)) (fs_norm (snd ffs)))) (md_factors md))
        (md_observed md) (md_controls md) (md_stagemap md) (md_anchoring md) (md_options md).

(** Documented defaults (docs: model_specs), written out. *)
Definition default {A} (o : option A) (d : A) : option A :=
  match o with Some a => Some a | None => Some d end.

Definition write_out_defaults (n : nat) (md : model_dict) : model_dict :=
  mk_md
    (map (fun ffs => (fst ffs,
            mk_factor (fs_measurements (snd ffs)) (fs_transition (snd ffs))
              (match fs_norm (snd ffs) with
               | Some nm => Some (mk_norm (default (ns_loadings nm) [])
                                          (default (ns_intercepts nm) []))
               | None => Some (mk_norm (Some []) (Some []))
               end))) (md_factors md))
    (default (md_observed md) [])
    (default (md_controls md) [])
    (default (md_stagemap md) (map Z.of_nat (seq 0 (n - 1))))
    (match md_anchoring md with
     | Some a => Some (mk_anch (default (as_outcomes a) []) (default (as_free_controls a) false)
                         (default (as_free_constant a) false) (default (as_free_loadings a) false)
                         (default (as_ignore_constant a) false))
     | None => None
     end)
    (match md_options md with
     | Some o => Some (mk_opts (default (os_n_mixtures o) 1)
                        (default (os_sigma_points_scale o) 2%Q)
                        (default (os_robust_bounds o) true)
                        (default (os_bounds_distance o) (1 # 1000)%Q)
                        (default (os_clip_lower o) (Some (inject_Z (- 10 ^ 250))))
                        (default (os_clip_upper o) None)
                        (default (os_clip_lower_hardness o) 1%Q)
                        (default (os_clip_upper_hardness o) 1%Q))
     | None => None
     end).
