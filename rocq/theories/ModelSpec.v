(** Typed model specifications (docs/source/reference_guides/model_specs.rst and
    the way [process_model] reads [model_dict]).

    Simplifications: names of factors, measurements, controls and outcomes are
    strings (the code also allows int and tuple for column names); the values in
    the specification have the Python type the documentation asks for, so that
    the isinstance checks in check_model.py always pass (they are modelled on
    untyped values in [RawModel.v]); numbers are rationals. *)
Require Import String QArith List.
From Verif Require Import PyBase.
Import ListNotations.

(** A transition function: the name of an implemented one, or a callable with an
    optional [__name__] and optional [__registered_params__], or something else. *)
Inductive trans_spec :=
| TStr (s : string)
| TFun (fname : option string) (registered : option (list string))
| TOther.

Record norm_spec := mk_norm {
  ns_loadings : option (list (dict Q));
  ns_intercepts : option (list (dict Q)) }.

Record factor_spec := mk_factor {
  fs_measurements : list (list string);
  fs_transition : trans_spec;
  fs_norm : option norm_spec }.

Record anchoring_spec := mk_anch {
  as_outcomes : option (dict string);
  as_free_controls : option bool;
  as_free_constant : option bool;
  as_free_loadings : option bool;
  as_ignore_constant : option bool }.

Record options_spec := mk_opts {
  os_n_mixtures : option nat;
  os_sigma_points_scale : option Q;
  os_robust_bounds : option bool;
  os_bounds_distance : option Q;
  os_clip_lower : option (option Q);
  os_clip_upper : option (option Q);
  os_clip_lower_hardness : option Q;
  os_clip_upper_hardness : option Q }.

Record model_dict := mk_md {
  md_factors : dict factor_spec;
  md_observed : option (list string);
  md_controls : option (list string);
  md_stagemap : option (list Z);
  md_anchoring : option anchoring_spec;
  md_options : option options_spec }.

(** [d.get(key, default)] *)
Definition get_default {A} (o : option A) (d : A) : A :=
  match o with Some a => a | None => d end.
