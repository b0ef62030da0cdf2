(** What the words of property C101 mean: model specifications which differ only in
    restrictions on the parameters. *)
Require Import String List.
From Verif Require Import PyBase ModelSpec SpecModel SpecParse.

(** The specifications have the same factors with the same measurements and transition
    functions, the same observed factors and controls, the same anchoring outcomes, and
    the same options of the likelihood function.  They may differ in the normalizations
    of loadings and intercepts, in the stages, in whether loadings, constants and
    coefficients of controls in anchoring equations are free and in the bounds of standard
    deviations (robust_bounds and bounds_distance). *)
Definition differ_in_restrictions (md md' : model_dict) : Prop :=
  Forall2 (fun fa fa' => fst fa = fst fa' /\ fs_measurements (snd fa) = fs_measurements (snd fa') /\
                         fs_transition (snd fa) = fs_transition (snd fa')) (md_factors md) (md_factors md') /\
  observed_of md = observed_of md' /\ controls_of md = controls_of md' /\
  outcomes_of md = outcomes_of md' /\ ignores_constant md = ignores_constant md' /\
  exists o o', md_options md = Some o /\ md_options md' = Some o' /\
    os_n_mixtures o = os_n_mixtures o' /\ os_sigma_points_scale o = os_sigma_points_scale o' /\
    os_clip_lower o = os_clip_lower o' /\ os_clip_upper o = os_clip_upper o' /\
    os_clip_lower_hardness o = os_clip_lower_hardness o' /\ os_clip_upper_hardness o = os_clip_upper_hardness o'.
