(** What a user of custom transition functions relies on (C113). *)
Require Import Reals String Bool List.
From Verif Require Import PyBase ModelSpec ProcessModel TransitionFunctions Dag.
Import ListNotations.
Open Scope string_scope.
Open Scope list_scope.

(** Names of factors that are different and do not look like [__next_factor__]. *)
Definition factor_names (latent all : list string) : Prop :=
  NoDup all /\ incl latent all /\ NoDup latent /\
  forall f, In f latent -> ~ In (("__next_" ++ f ++ "__")%string) all.

(** Names of factors that do not collide with the arguments of functions either. *)
Definition dag_names (latent all : list string) : Prop :=
  factor_names latent all /\ ~ In "params" all /\ ~ In "states" all.

(** A callable takes the parameters and, as it likes, the vector of states and
    individual factors. It returns a number if it returns at all. *)
Definition proper_callable (all : list string) (f : dfunc) : Prop :=
  In "params" (df_args f) /\ NoDup (df_args f) /\
  (forall a, In a (df_args f) -> a = "params" \/ a = "states" \/ In a all) /\
  (forall kwargs v, df_body f kwargs = Ok v -> exists x, v = DNum x).

(** A specification of a transition function that works. *)
Definition proper_transition (custom_function : string -> dfunc) (all : list string) (factor : string) (spec : trans_spec) : Prop :=
  match spec with
  | TStr s => exists t, tf_of_string s = Some t
  | TFun (Some _) (Some _) => proper_callable all (custom_function factor)
  | _ => False
  end.

(** It depends on the states. *)
Definition depends_on_states (custom_function : string -> dfunc) (factor : string) (spec : trans_spec) : Prop :=
  match spec with
  | TFun _ _ => exists a, In a (df_args (custom_function factor)) /\ a <> "params"
  | _ => True
  end.

(** The keyword arguments of a callable: under [params] a dictionary with its parameters,
    under [states] the vector of states, and under the name of a factor its state. *)
Definition keyword_arguments (f : dfunc) (named : dict R) (env : dict R) (states : list R) (kwargs : dict dvalue) : Prop :=
  map fst kwargs = df_args f /\
  forall a v, In (a, v) kwargs ->
    (a = "params" -> v = DNamed named) /\ (a = "states" -> v = DVec states) /\
    (a <> "params" -> a <> "states" -> exists x, dget env a = Some x /\ v = DNum x).

(** What a callable returns for such arguments. *)
Definition call (custom_function : string -> dfunc) (factor : string) (named env : dict R) (states : list R) : result R :=
  do v <- df_body (custom_function factor)
       (map (fun a => (a, if String.eqb a "params" then DNamed named
                          else if String.eqb a "states" then DVec states
                          else match dget env a with Some x => DNum x | None => DVec [] end))
          (df_args (custom_function factor)));
  as_num v.
