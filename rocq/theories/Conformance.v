(** Fixtures of the test-suite, transcribed from
    skillmodels/tests/model2_correct_update_info.csv and
    skillmodels/tests/model2_correct_params_index.csv. These are tests of the
    model against data of the repository, not proofs of properties. *)
Require Import String List.
From Verif Require Import PyBase ModelSpec ProcessModel CheckModel ParamsIndex ExampleModels.
Import ListNotations.
Open Scope string_scope.
Open Scope list_scope.

Definition csv_update_info : list (nat * string * list bool * option purpose) := [
  (0, "y1", [true; false; false], Some PMeasurement);
  (0, "y2", [true; false; false], Some PMeasurement);
  (0, "y3", [true; false; false], Some PMeasurement);
  (0, "y4", [false; true; false], Some PMeasurement);
  (0, "y5", [false; true; false], Some PMeasurement);
  (0, "y6", [false; true; false], Some PMeasurement);
  (0, "y7", [false; false; true], Some PMeasurement);
  (0, "y8", [false; false; true], Some PMeasurement);
  (0, "y9", [false; false; true], Some PMeasurement);
  (0, "Q1_fac1", [true; false; false], Some PAnchoring);
  (1, "y1", [true; false; false], Some PMeasurement);
  (1, "y2", [true; false; false], Some PMeasurement);
  (1, "y3", [true; false; false], Some PMeasurement);
  (1, "y4", [false; true; false], Some PMeasurement);
  (1, "y5", [false; true; false], Some PMeasurement);
  (1, "y6", [false; true; false], Some PMeasurement);
  (1, "Q1_fac1", [true; false; false], Some PAnchoring);
  (2, "y1", [true; false; false], Some PMeasurement);
  (2, "y2", [true; false; false], Some PMeasurement);
  (2, "y3", [true; false; false], Some PMeasurement);
  (2, "y4", [false; true; false], Some PMeasurement);
  (2, "y5", [false; true; false], Some PMeasurement);
  (2, "y6", [false; true; false], Some PMeasurement);
  (2, "Q1_fac1", [true; false; false], Some PAnchoring);
  (3, "y1", [true; false; false], Some PMeasurement);
  (3, "y2", [true; false; false], Some PMeasurement);
  (3, "y3", [true; false; false], Some PMeasurement);
  (3, "y4", [false; true; false], Some PMeasurement);
  (3, "y5", [false; true; false], Some PMeasurement);
  (3, "y6", [false; true; false], Some PMeasurement);
  (3, "Q1_fac1", [true; false; false], Some PAnchoring);
  (4, "y1", [true; false; false], Some PMeasurement);
  (4, "y2", [true; false; false], Some PMeasurement);
  (4, "y3", [true; false; false], Some PMeasurement);
  (4, "y4", [false; true; false], Some PMeasurement);
  (4, "y5", [false; true; false], Some PMeasurement);
  (4, "y6", [false; true; false], Some PMeasurement);
  (4, "Q1_fac1", [true; false; false], Some PAnchoring);
  (5, "y1", [true; false; false], Some PMeasurement);
  (5, "y2", [true; false; false], Some PMeasurement);
  (5, "y3", [true; false; false], Some PMeasurement);
  (5, "y4", [false; true; false], Some PMeasurement);
  (5, "y5", [false; true; false], Some PMeasurement);
  (5, "y6", [false; true; false], Some PMeasurement);
  (5, "Q1_fac1", [true; false; false], Some PAnchoring);
  (6, "y1", [true; false; false], Some PMeasurement);
  (6, "y2", [true; false; false], Some PMeasurement);
  (6, "y3", [true; false; false], Some PMeasurement);
  (6, "y4", [false; true; false], Some PMeasurement);
  (6, "y5", [false; true; false], Some PMeasurement);
  (6, "y6", [false; true; false], Some PMeasurement);
  (6, "Q1_fac1", [true; false; false], Some PAnchoring);
  (7, "y1", [true; false; false], Some PMeasurement);
  (7, "y2", [true; false; false], Some PMeasurement);
  (7, "y3", [true; false; false], Some PMeasurement);
  (7, "y4", [false; true; false], Some PMeasurement);
  (7, "y5", [false; true; false], Some PMeasurement);
  (7, "y6", [false; true; false], Some PMeasurement);
  (7, "Q1_fac1", [true; false; false], Some PAnchoring)].

Definition csv_params_index : list label := [
  (CControls, 0, "y1", "constant");
  (CControls, 0, "y1", "x1");
  (CControls, 0, "y2", "constant");
  (CControls, 0, "y2", "x1");
  (CControls, 0, "y3", "constant");
  (CControls, 0, "y3", "x1");
  (CControls, 0, "y4", "constant");
  (CControls, 0, "y4", "x1");
  (CControls, 0, "y5", "constant");
  (CControls, 0, "y5", "x1");
  (CControls, 0, "y6", "constant");
  (CControls, 0, "y6", "x1");
  (CControls, 0, "y7", "constant");
  (CControls, 0, "y7", "x1");
  (CControls, 0, "y8", "constant");
  (CControls, 0, "y8", "x1");
  (CControls, 0, "y9", "constant");
  (CControls, 0, "y9", "x1");
  (CControls, 0, "Q1_fac1", "constant");
  (CControls, 0, "Q1_fac1", "x1");
  (CControls, 1, "y1", "constant");
  (CControls, 1, "y1", "x1");
  (CControls, 1, "y2", "constant");
  (CControls, 1, "y2", "x1");
  (CControls, 1, "y3", "constant");
  (CControls, 1, "y3", "x1");
  (CControls, 1, "y4", "constant");
  (CControls, 1, "y4", "x1");
  (CControls, 1, "y5", "constant");
  (CControls, 1, "y5", "x1");
  (CControls, 1, "y6", "constant");
  (CControls, 1, "y6", "x1");
  (CControls, 1, "Q1_fac1", "constant");
  (CControls, 1, "Q1_fac1", "x1");
  (CControls, 2, "y1", "constant");
  (CControls, 2, "y1", "x1");
  (CControls, 2, "y2", "constant");
  (CControls, 2, "y2", "x1");
  (CControls, 2, "y3", "constant");
  (CControls, 2, "y3", "x1");
  (CControls, 2, "y4", "constant");
  (CControls, 2, "y4", "x1");
  (CControls, 2, "y5", "constant");
  (CControls, 2, "y5", "x1");
  (CControls, 2, "y6", "constant");
  (CControls, 2, "y6", "x1");
  (CControls, 2, "Q1_fac1", "constant");
  (CControls, 2, "Q1_fac1", "x1");
  (CControls, 3, "y1", "constant");
  (CControls, 3, "y1", "x1");
  (CControls, 3, "y2", "constant");
  (CControls, 3, "y2", "x1");
  (CControls, 3, "y3", "constant");
  (CControls, 3, "y3", "x1");
  (CControls, 3, "y4", "constant");
  (CControls, 3, "y4", "x1");
  (CControls, 3, "y5", "constant");
  (CControls, 3, "y5", "x1");
  (CControls, 3, "y6", "constant");
  (CControls, 3, "y6", "x1");
  (CControls, 3, "Q1_fac1", "constant");
  (CControls, 3, "Q1_fac1", "x1");
  (CControls, 4, "y1", "constant");
  (CControls, 4, "y1", "x1");
  (CControls, 4, "y2", "constant");
  (CControls, 4, "y2", "x1");
  (CControls, 4, "y3", "constant");
  (CControls, 4, "y3", "x1");
  (CControls, 4, "y4", "constant");
  (CControls, 4, "y4", "x1");
  (CControls, 4, "y5", "constant");
  (CControls, 4, "y5", "x1");
  (CControls, 4, "y6", "constant");
  (CControls, 4, "y6", "x1");
  (CControls, 4, "Q1_fac1", "constant");
  (CControls, 4, "Q1_fac1", "x1");
  (CControls, 5, "y1", "constant");
  (CControls, 5, "y1", "x1");
  (CControls, 5, "y2", "constant");
  (CControls, 5, "y2", "x1");
  (CControls, 5, "y3", "constant");
  (CControls, 5, "y3", "x1");
  (CControls, 5, "y4", "constant");
  (CControls, 5, "y4", "x1");
  (CControls, 5, "y5", "constant");
  (CControls, 5, "y5", "x1");
  (CControls, 5, "y6", "constant");
  (CControls, 5, "y6", "x1");
  (CControls, 5, "Q1_fac1", "constant");
  (CControls, 5, "Q1_fac1", "x1");
  (CControls, 6, "y1", "constant");
  (CControls, 6, "y1", "x1");
  (CControls, 6, "y2", "constant");
  (CControls, 6, "y2", "x1");
  (CControls, 6, "y3", "constant");
  (CControls, 6, "y3", "x1");
  (CControls, 6, "y4", "constant");
  (CControls, 6, "y4", "x1");
  (CControls, 6, "y5", "constant");
  (CControls, 6, "y5", "x1");
  (CControls, 6, "y6", "constant");
  (CControls, 6, "y6", "x1");
  (CControls, 6, "Q1_fac1", "constant");
  (CControls, 6, "Q1_fac1", "x1");
  (CControls, 7, "y1", "constant");
  (CControls, 7, "y1", "x1");
  (CControls, 7, "y2", "constant");
  (CControls, 7, "y2", "x1");
  (CControls, 7, "y3", "constant");
  (CControls, 7, "y3", "x1");
  (CControls, 7, "y4", "constant");
  (CControls, 7, "y4", "x1");
  (CControls, 7, "y5", "constant");
  (CControls, 7, "y5", "x1");
  (CControls, 7, "y6", "constant");
  (CControls, 7, "y6", "x1");
  (CControls, 7, "Q1_fac1", "constant");
  (CControls, 7, "Q1_fac1", "x1");
  (CLoadings, 0, "y1", "fac1");
  (CLoadings, 0, "y2", "fac1");
  (CLoadings, 0, "y3", "fac1");
  (CLoadings, 0, "y4", "fac2");
  (CLoadings, 0, "y5", "fac2");
  (CLoadings, 0, "y6", "fac2");
  (CLoadings, 0, "y7", "fac3");
  (CLoadings, 0, "y8", "fac3");
  (CLoadings, 0, "y9", "fac3");
  (CLoadings, 0, "Q1_fac1", "fac1");
  (CLoadings, 1, "y1", "fac1");
  (CLoadings, 1, "y2", "fac1");
  (CLoadings, 1, "y3", "fac1");
  (CLoadings, 1, "y4", "fac2");
  (CLoadings, 1, "y5", "fac2");
  (CLoadings, 1, "y6", "fac2");
  (CLoadings, 1, "Q1_fac1", "fac1");
  (CLoadings, 2, "y1", "fac1");
  (CLoadings, 2, "y2", "fac1");
  (CLoadings, 2, "y3", "fac1");
  (CLoadings, 2, "y4", "fac2");
  (CLoadings, 2, "y5", "fac2");
  (CLoadings, 2, "y6", "fac2");
  (CLoadings, 2, "Q1_fac1", "fac1");
  (CLoadings, 3, "y1", "fac1");
  (CLoadings, 3, "y2", "fac1");
  (CLoadings, 3, "y3", "fac1");
  (CLoadings, 3, "y4", "fac2");
  (CLoadings, 3, "y5", "fac2");
  (CLoadings, 3, "y6", "fac2");
  (CLoadings, 3, "Q1_fac1", "fac1");
  (CLoadings, 4, "y1", "fac1");
  (CLoadings, 4, "y2", "fac1");
  (CLoadings, 4, "y3", "fac1");
  (CLoadings, 4, "y4", "fac2");
  (CLoadings, 4, "y5", "fac2");
  (CLoadings, 4, "y6", "fac2");
  (CLoadings, 4, "Q1_fac1", "fac1");
  (CLoadings, 5, "y1", "fac1");
  (CLoadings, 5, "y2", "fac1");
  (CLoadings, 5, "y3", "fac1");
  (CLoadings, 5, "y4", "fac2");
  (CLoadings, 5, "y5", "fac2");
  (CLoadings, 5, "y6", "fac2");
  (CLoadings, 5, "Q1_fac1", "fac1");
  (CLoadings, 6, "y1", "fac1");
  (CLoadings, 6, "y2", "fac1");
  (CLoadings, 6, "y3", "fac1");
  (CLoadings, 6, "y4", "fac2");
  (CLoadings, 6, "y5", "fac2");
  (CLoadings, 6, "y6", "fac2");
  (CLoadings, 6, "Q1_fac1", "fac1");
  (CLoadings, 7, "y1", "fac1");
  (CLoadings, 7, "y2", "fac1");
  (CLoadings, 7, "y3", "fac1");
  (CLoadings, 7, "y4", "fac2");
  (CLoadings, 7, "y5", "fac2");
  (CLoadings, 7, "y6", "fac2");
  (CLoadings, 7, "Q1_fac1", "fac1");
  (CMeasSds, 0, "y1", "-");
  (CMeasSds, 0, "y2", "-");
  (CMeasSds, 0, "y3", "-");
  (CMeasSds, 0, "y4", "-");
  (CMeasSds, 0, "y5", "-");
  (CMeasSds, 0, "y6", "-");
  (CMeasSds, 0, "y7", "-");
  (CMeasSds, 0, "y8", "-");
  (CMeasSds, 0, "y9", "-");
  (CMeasSds, 0, "Q1_fac1", "-");
  (CMeasSds, 1, "y1", "-");
  (CMeasSds, 1, "y2", "-");
  (CMeasSds, 1, "y3", "-");
  (CMeasSds, 1, "y4", "-");
  (CMeasSds, 1, "y5", "-");
  (CMeasSds, 1, "y6", "-");
  (CMeasSds, 1, "Q1_fac1", "-");
  (CMeasSds, 2, "y1", "-");
  (CMeasSds, 2, "y2", "-");
  (CMeasSds, 2, "y3", "-");
  (CMeasSds, 2, "y4", "-");
  (CMeasSds, 2, "y5", "-");
  (CMeasSds, 2, "y6", "-");
  (CMeasSds, 2, "Q1_fac1", "-");
  (CMeasSds, 3, "y1", "-");
  (CMeasSds, 3, "y2", "-");
  (CMeasSds, 3, "y3", "-");
  (CMeasSds, 3, "y4", "-");
  (CMeasSds, 3, "y5", "-");
  (CMeasSds, 3, "y6", "-");
  (CMeasSds, 3, "Q1_fac1", "-");
  (CMeasSds, 4, "y1", "-");
  (CMeasSds, 4, "y2", "-");
  (CMeasSds, 4, "y3", "-");
  (CMeasSds, 4, "y4", "-");
  (CMeasSds, 4, "y5", "-");
  (CMeasSds, 4, "y6", "-");
  (CMeasSds, 4, "Q1_fac1", "-");
  (CMeasSds, 5, "y1", "-");
  (CMeasSds, 5, "y2", "-");
  (CMeasSds, 5, "y3", "-");
  (CMeasSds, 5, "y4", "-");
  (CMeasSds, 5, "y5", "-");
  (CMeasSds, 5, "y6", "-");
  (CMeasSds, 5, "Q1_fac1", "-");
  (CMeasSds, 6, "y1", "-");
  (CMeasSds, 6, "y2", "-");
  (CMeasSds, 6, "y3", "-");
  (CMeasSds, 6, "y4", "-");
  (CMeasSds, 6, "y5", "-");
  (CMeasSds, 6, "y6", "-");
  (CMeasSds, 6, "Q1_fac1", "-");
  (CMeasSds, 7, "y1", "-");
  (CMeasSds, 7, "y2", "-");
  (CMeasSds, 7, "y3", "-");
  (CMeasSds, 7, "y4", "-");
  (CMeasSds, 7, "y5", "-");
  (CMeasSds, 7, "y6", "-");
  (CMeasSds, 7, "Q1_fac1", "-");
  (CShockSds, 0, "fac1", "-");
  (CShockSds, 0, "fac2", "-");
  (CShockSds, 0, "fac3", "-");
  (CShockSds, 1, "fac1", "-");
  (CShockSds, 1, "fac2", "-");
  (CShockSds, 1, "fac3", "-");
  (CShockSds, 2, "fac1", "-");
  (CShockSds, 2, "fac2", "-");
  (CShockSds, 2, "fac3", "-");
  (CShockSds, 3, "fac1", "-");
  (CShockSds, 3, "fac2", "-");
  (CShockSds, 3, "fac3", "-");
  (CShockSds, 4, "fac1", "-");
  (CShockSds, 4, "fac2", "-");
  (CShockSds, 4, "fac3", "-");
  (CShockSds, 5, "fac1", "-");
  (CShockSds, 5, "fac2", "-");
  (CShockSds, 5, "fac3", "-");
  (CShockSds, 6, "fac1", "-");
  (CShockSds, 6, "fac2", "-");
  (CShockSds, 6, "fac3", "-");
  (CInitStates, 0, "mixture_0", "fac1");
  (CInitStates, 0, "mixture_0", "fac2");
  (CInitStates, 0, "mixture_0", "fac3");
  (CMixWeights, 0, "mixture_0", "-");
  (CInitChol, 0, "mixture_0", "fac1-fac1");
  (CInitChol, 0, "mixture_0", "fac2-fac1");
  (CInitChol, 0, "mixture_0", "fac2-fac2");
  (CInitChol, 0, "mixture_0", "fac3-fac1");
  (CInitChol, 0, "mixture_0", "fac3-fac2");
  (CInitChol, 0, "mixture_0", "fac3-fac3");
  (CTransition, 0, "fac1", "fac1");
  (CTransition, 0, "fac1", "fac2");
  (CTransition, 0, "fac1", "fac3");
  (CTransition, 0, "fac1", "phi");
  (CTransition, 1, "fac1", "fac1");
  (CTransition, 1, "fac1", "fac2");
  (CTransition, 1, "fac1", "fac3");
  (CTransition, 1, "fac1", "phi");
  (CTransition, 2, "fac1", "fac1");
  (CTransition, 2, "fac1", "fac2");
  (CTransition, 2, "fac1", "fac3");
  (CTransition, 2, "fac1", "phi");
  (CTransition, 3, "fac1", "fac1");
  (CTransition, 3, "fac1", "fac2");
  (CTransition, 3, "fac1", "fac3");
  (CTransition, 3, "fac1", "phi");
  (CTransition, 4, "fac1", "fac1");
  (CTransition, 4, "fac1", "fac2");
  (CTransition, 4, "fac1", "fac3");
  (CTransition, 4, "fac1", "phi");
  (CTransition, 5, "fac1", "fac1");
  (CTransition, 5, "fac1", "fac2");
  (CTransition, 5, "fac1", "fac3");
  (CTransition, 5, "fac1", "phi");
  (CTransition, 6, "fac1", "fac1");
  (CTransition, 6, "fac1", "fac2");
  (CTransition, 6, "fac1", "fac3");
  (CTransition, 6, "fac1", "phi");
  (CTransition, 0, "fac2", "fac1");
  (CTransition, 0, "fac2", "fac2");
  (CTransition, 0, "fac2", "fac3");
  (CTransition, 0, "fac2", "constant");
  (CTransition, 1, "fac2", "fac1");
  (CTransition, 1, "fac2", "fac2");
  (CTransition, 1, "fac2", "fac3");
  (CTransition, 1, "fac2", "constant");
  (CTransition, 2, "fac2", "fac1");
  (CTransition, 2, "fac2", "fac2");
  (CTransition, 2, "fac2", "fac3");
  (CTransition, 2, "fac2", "constant");
  (CTransition, 3, "fac2", "fac1");
  (CTransition, 3, "fac2", "fac2");
  (CTransition, 3, "fac2", "fac3");
  (CTransition, 3, "fac2", "constant");
  (CTransition, 4, "fac2", "fac1");
  (CTransition, 4, "fac2", "fac2");
  (CTransition, 4, "fac2", "fac3");
  (CTransition, 4, "fac2", "constant");
  (CTransition, 5, "fac2", "fac1");
  (CTransition, 5, "fac2", "fac2");
  (CTransition, 5, "fac2", "fac3");
  (CTransition, 5, "fac2", "constant");
  (CTransition, 6, "fac2", "fac1");
  (CTransition, 6, "fac2", "fac2");
  (CTransition, 6, "fac2", "fac3");
  (CTransition, 6, "fac2", "constant")].

Example model2_update_info :
  rmap (fun p => map (fun r => (u_period r, u_var r, map (u_flag r) (l_latent (p_labels p)),
                                u_purpose r)) (p_update p)) (process_model model2)
  = Ok csv_update_info.
Proof. vm_compute. reflexivity. Qed.

Example model2_params_index :
  rmap params_index_of (process_model model2) = Ok csv_params_index.
Proof. vm_compute. reflexivity. Qed.
