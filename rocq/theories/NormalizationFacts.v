(** Quadratic production functions on another scale of the factors. *)
Require Import Reals String Arith Bool List Lia Lra.
From Verif Require Import PyBase ListFacts ModelSpec SpecModel SpecIndex IndexFacts ParamsIndex SpecTransition TransitionFacts SpecNormalization.
Import ListNotations.
Open Scope R_scope.

Lemma sum_of_add {A} (l : list A) f g : sum_of l (fun x => f x + g x) = sum_of l f + sum_of l g.
Proof. induction l as [|a l IH]; cbn [sum_of]; [ring|rewrite IH; ring]. Qed.

Lemma sum_of_swap {A B} (l : list A) (m : list B) f :
  sum_of l (fun a => sum_of m (f a)) = sum_of m (fun b => sum_of l (fun a => f a b)).
Proof.
  induction l as [|a l IH]; cbn [sum_of]; [symmetry; now apply sum_of_zero|]. rewrite IH. now rewrite <- sum_of_add.
Qed.

Lemma sum_of_pick (l : list string) x (F : string -> R) : NoDup l -> In x l ->
  sum_of l (fun g => if String.eqb x g then F g else 0) = F x.
Proof.
  induction l as [|a l IH]; intros Hnd Hin; [destruct Hin|]. cbn [sum_of]. inversion Hnd as [|? ? Ha Hl]; subst.
  destruct (String.eqb_spec x a) as [->|E].
  - rewrite sum_of_zero; [ring|]. intros g Hg. destruct (String.eqb_spec a g) as [->|]; [contradiction|reflexivity].
  - destruct Hin as [->|Hin]; [congruence|]. rewrite (IH Hl Hin). ring.
Qed.

Definition quadratic_formula (all : list string) (s : string) (beta state : string -> R) : R :=
  sum_of all (fun g => beta g * state g) + sum_of all (fun g => square s beta g * (state g * state g))
  + sum_of (pairs_in_order all) (fun ab => interaction s beta ab * (state (fst ab) * state (snd ab))) + beta "constant"%string.

Lemma quadratic_documented all s beta state own : quadratic_name s -> documented all beta state own s (quadratic_formula all s beta state).
Proof.
  intros [-> | [-> | ->]].
  - replace (quadratic_formula all "linear" beta state) with (linear_formula all beta state); [constructor|].
    unfold linear_formula, linear_part, quadratic_formula, square, interaction. cbn [String.eqb Ascii.eqb Bool.eqb].
    rewrite (sum_of_zero all (fun g => 0 * _)), (sum_of_zero (pairs_in_order all)) by (intros; ring). ring.
  - replace (quadratic_formula all "linear_and_squares" beta state) with (squares_formula all beta state); [constructor|].
    unfold squares_formula, linear_part, square_part, quadratic_formula, square, interaction. cbn [String.eqb Ascii.eqb Bool.eqb].
    rewrite (sum_of_zero (pairs_in_order all)) by (intros; ring). ring.
  - replace (quadratic_formula all "translog" beta state) with (translog_formula all beta state); [constructor|].
    unfold translog_formula, linear_part, square_part, interaction_part, quadratic_formula, square, interaction. cbn [String.eqb Ascii.eqb Bool.eqb].
    reflexivity.
Qed.

Section Adapted.
  Variables (all : list string) (slope offset : string -> R) (scale shift : R) (s : string) (beta beta' : string -> R).
  Hypothesis Hnd : NoDup all.
  Hypothesis Hs : quadratic_name s.
  Hypothesis Hb : adapted_coefficients all slope offset scale shift s beta beta'.

  Lemma adapted_square g : In g all -> square s beta' g = new_square slope scale s beta g.
  Proof.
    intros Hg. destruct Hb as (_ & B & _). unfold square. destruct (String.eqb_spec s "linear") as [E|E].
    - unfold new_square, square. rewrite (proj2 (String.eqb_eq s "linear") E). ring.
    - now apply B.
  Qed.

  Lemma adapted_interaction ab : In ab (pairs_in_order all) -> interaction s beta' ab = new_interaction slope scale s beta ab.
  Proof.
    intros Hg. destruct Hb as (_ & _ & B & _). unfold interaction. destruct (String.eqb_spec s "translog") as [E|E].
    - now apply B.
    - unfold new_interaction, interaction. rewrite (proj2 (String.eqb_neq s "translog") E). ring.
  Qed.

  (** The interaction terms, collected by factor. *)
  Lemma interacting_sum (y : string -> R) :
    sum_of all (fun g => y g * interacting all offset s beta g)
    = sum_of (pairs_in_order all) (fun ab => interaction s beta ab * (y (fst ab) * offset (snd ab) + y (snd ab) * offset (fst ab))).
  Proof.
    unfold interacting.
    rewrite (sum_of_ext all _ (fun g => sum_of (pairs_in_order all) (fun ab => interaction s beta ab *
        ((if String.eqb (fst ab) g then y g * offset (snd ab) else 0) + (if String.eqb (snd ab) g then y g * offset (fst ab) else 0))))).
    - rewrite sum_of_swap. apply sum_of_ext. intros [a b] Hab. apply In_pairs in Hab as [Ha Hb']. cbn [fst snd].
      rewrite sum_of_scal, sum_of_add.
      rewrite (sum_of_pick all a (fun g => y g * offset b) Hnd Ha), (sum_of_pick all b (fun g => y g * offset a) Hnd Hb'). reflexivity.
    - intros g _. rewrite <- sum_of_scal. apply sum_of_ext. intros [a b] _. cbn [fst snd].
      destruct (String.eqb a g), (String.eqb b g); ring.
  Qed.

  (** The production function on the new scale is the old one. *)
  Lemma adapted_formula old new : (forall g, In g all -> old g = slope g * new g - offset g) ->
    quadratic_formula all s beta' new = scale * quadratic_formula all s beta old + shift.
  Proof.
    intros Hst. pose proof Hb as (B1 & _ & _ & B4). unfold quadratic_formula. rewrite B4. unfold new_constant.
    rewrite (sum_of_ext all (fun g => beta' g * new g)
      (fun g => scale * (beta g * (slope g * new g)) + (scale * (-2 * (square s beta g * (slope g * new g * offset g))) + (- scale) * (slope g * new g * interacting all offset s beta g))))
      by (intros g Hg; rewrite (B1 g Hg); unfold new_linear; ring).
    rewrite (sum_of_ext all (fun g => square s beta' g * _) (fun g => scale * (square s beta g * (slope g * new g * (slope g * new g)))))
      by (intros g Hg; rewrite (adapted_square g Hg); unfold new_square; ring).
    rewrite (sum_of_ext (pairs_in_order all) (fun ab => interaction s beta' ab * _)
      (fun ab => scale * (interaction s beta ab * (slope (fst ab) * new (fst ab) * (slope (snd ab) * new (snd ab))))))
      by (intros ab Hab; rewrite (adapted_interaction ab Hab); unfold new_interaction; ring).
    rewrite (sum_of_ext all (fun g => beta g * old g) (fun g => beta g * (slope g * new g) + (-1) * (beta g * offset g)))
      by (intros g Hg; rewrite (Hst g Hg); ring).
    rewrite (sum_of_ext all (fun g => square s beta g * (old g * old g))
      (fun g => square s beta g * (slope g * new g * (slope g * new g)) + (-2 * (square s beta g * (slope g * new g * offset g)) + square s beta g * (offset g * offset g))))
      by (intros g Hg; rewrite (Hst g Hg); ring).
    rewrite (sum_of_ext (pairs_in_order all) (fun ab => interaction s beta ab * (old (fst ab) * old (snd ab)))
      (fun ab => interaction s beta ab * (slope (fst ab) * new (fst ab) * (slope (snd ab) * new (snd ab)))
        + ((-1) * (interaction s beta ab * (slope (fst ab) * new (fst ab) * offset (snd ab) + slope (snd ab) * new (snd ab) * offset (fst ab)))
           + interaction s beta ab * (offset (fst ab) * offset (snd ab))))).
    2:{ intros [a b] Hab. apply In_pairs in Hab as [Ha Hb']. cbn [fst snd]. rewrite (Hst a Ha), (Hst b Hb'). ring. }
    rewrite !sum_of_add, !sum_of_scal, (interacting_sum (fun g => slope g * new g)). ring.
  Qed.
End Adapted.

Lemma sum_of_positive (l : list string) f : (forall x, In x l -> 0 <= f x) -> (exists x, In x l /\ 0 < f x) -> 0 < sum_of l f.
Proof.
  induction l as [|a l IH]; intros Hn (x & Hin & Hx); [destruct Hin|]. cbn [sum_of].
  assert (0 <= sum_of l f).
  { clear -Hn. induction l as [|b l IH]; cbn [sum_of]; [lra|]. pose proof (Hn b ltac:(right; now left)).
    assert (0 <= sum_of l f) by (apply IH; intros y Hy; apply Hn; destruct Hy as [->|Hy]; [now left|right; now right]). lra. }
  pose proof (Hn a (or_introl eq_refl)). destruct Hin as [->|Hin]; [lra|].
  assert (0 < sum_of l f) by (apply IH; [intros y Hy; apply Hn; now right|eauto]). lra.
Qed.

(** Changed shares: positive multiples. *)
Lemma shares_scaled all beta beta' c : shares all beta -> (forall g, In g all -> 0 < c g) ->
  (forall g, In g all -> beta' g = beta g * c g) -> shares all beta'.
Proof.
  intros [S1 (f & Hf & Sf)] Hc E. split.
  - intros g Hg. rewrite (E g Hg). apply Rmult_le_pos; [now apply S1|]. apply Rlt_le. now apply Hc.
  - exists f. split; [exact Hf|]. rewrite (E f Hf). apply Rmult_lt_0_compat; [exact Sf|now apply Hc].
Qed.

Lemma shares_sum all beta e : shares all beta -> 0 < sum_of all (fun g => beta g * exp (e g)).
Proof.
  intros [S1 (f & Hf & Sf)]. apply sum_of_positive.
  - intros g Hg. apply Rmult_le_pos; [now apply S1|]. apply Rlt_le, exp_pos.
  - exists f. split; [exact Hf|]. apply Rmult_lt_0_compat; [exact Sf|apply exp_pos].
Qed.

(** The production function on the new scale is the old one. *)
Lemma adapted_documented all slope offset scale shift s beta beta' own old new : NoDup all -> scale <> 0 ->
  adapted_production all slope offset scale shift s beta beta' -> (forall g, In g all -> old g = slope g * new g - offset g) ->
  exists y y', documented all beta old own s y /\ documented all beta' new own s y' /\ y' = scale * y + shift.
Proof.
  intros Hnd Hsc [[Hs Ha]|[[-> Ha]|[-> Ha]]] Hst.
  - exists (quadratic_formula all s beta old), (quadratic_formula all s beta' new).
    split; [now apply quadratic_documented|]. split; [now apply quadratic_documented|].
    now apply (adapted_formula all slope offset scale shift s beta beta' Hnd Ha).
  - destruct Ha as (Sh & T0 & T & S & B).
    set (c := fun g => exp (shift / (scale * beta "tfp"%string) - beta ("sigma_" ++ g)%string * offset g)) in B.
    assert (Sh' : shares all beta') by (apply (shares_scaled all beta beta' c Sh); [intros g _; apply exp_pos|exact B]).
    exists (log_ces_general_formula all beta old), (log_ces_general_formula all beta' new).
    split; [now constructor|]. split; [now constructor|]. unfold log_ces_general_formula. rewrite T.
    rewrite (sum_of_ext all (fun f => beta' f * _)
      (fun g => exp (shift / (scale * beta "tfp"%string)) * (beta g * exp (beta ("sigma_" ++ g)%string * old g)))).
    + rewrite sum_of_scal, ln_mult; [|apply exp_pos|now apply shares_sum]. rewrite ln_exp. field. now split.
    + intros g Hg. rewrite (B g Hg), (S g Hg), (Hst g Hg). unfold c.
      replace (shift / (scale * beta "tfp"%string) - beta ("sigma_" ++ g)%string * offset g)
        with (shift / (scale * beta "tfp"%string) + - (beta ("sigma_" ++ g)%string * offset g)) by ring.
      replace (beta ("sigma_" ++ g)%string * (slope g * new g - offset g))
        with (- (beta ("sigma_" ++ g)%string * offset g) + slope g * beta ("sigma_" ++ g)%string * new g) by ring.
      rewrite !exp_plus. ring.
  - destruct Ha as (Sh & P0 & Sl & P & B). set (c := fun g => exp (beta "phi"%string * (shift / scale - offset g))) in B.
    assert (Sh' : shares all beta') by (apply (shares_scaled all beta beta' c Sh); [intros g _; apply exp_pos|exact B]).
    exists (log_ces_formula all beta old), (log_ces_formula all beta' new).
    split; [now constructor|]. split; [now constructor|]. unfold log_ces_formula. rewrite P.
    rewrite (sum_of_ext all (fun f => beta' f * _)
      (fun g => exp (beta "phi"%string * (shift / scale)) * (beta g * exp (beta "phi"%string * old g)))).
    + rewrite sum_of_scal, ln_mult; [|apply exp_pos|now apply shares_sum]. rewrite ln_exp. field. now split.
    + intros g Hg. rewrite (B g Hg), (Hst g Hg), (Sl g Hg). unfold c.
      replace (beta "phi"%string * (shift / scale - offset g))
        with (beta "phi"%string * (shift / scale) + - (beta "phi"%string * offset g)) by ring.
      replace (beta "phi"%string * (/ scale * new g - offset g))
        with (- (beta "phi"%string * offset g) + beta "phi"%string / scale * new g) by (field; exact Hsc).
      rewrite !exp_plus. ring.
Qed.
