(** Model of the demo scripts tensorD/demo/cp_demo.py, ncp_demo.py, ntucker_demo.py and tucker_demo.py: synthetic data, one
    decomposition in the default graph of a new process, the attributes read at the end.  The
    random draws, the starting point and the numerical routines are inputs; the printed lines and
    the summary files are not modelled.  The numbers are exact. *)

From Coq Require Import ZArith List Bool Arith Reals.
From Verif Require Import Num Py Tensor Types Fact Train DataGen Process Experiment.
Import ListNotations.
Local Open Scope R_scope.

(** cp_demo.py:17-26: data, provider, environment with a summary path, object, build_model, train,
    then the attributes factors and lambdas (cp.py:60-65) or core (tucker.py:196-201) *)
Definition demo (data : res (tensor R)) (c : tensor R -> cls R) (a : xargs R) (d : draws R) (steps : Z) : res (option (list (tensor R)) * option (tensor R)) :=
  do X <- data;
  match run start [CNew (c X) true; CBuild 0 a; CTrain 0 d steps] with
  | (p, Ok _) =>
      match nth_error (p_objs p) 0 with
      | Some b => Ok (p_factors (o_pub (b_obj b)), p_aux (o_pub (b_obj b)))
      | None => Raise IndexError
      end
  | (_, Raise e) => Raise e
  end.

(** cp_demo.py:17-25; the default noise is 0.1 (DataGenerator.py:16), the default tolerance 1.0e-4 *)
Definition cp_demo cast pinv rand randn (A : list (tensor R)) :=
  demo (cp_synthetic cast rand randn [20; 20; 20]%nat 10 (1 / 10)) (CP_ALS pinv)
    (mkX (mkArgs (1 / 10000) 5 false) 10 []) (mkDr A (mkT [] [])) 100.

(** ncp_demo.py:18-26; the attributes are factors and lambdas (ncp.py:57-62) *)
Definition ncp_demo cast pow svals rand randn (A : list (tensor R)) :=
  demo (cp_synthetic cast rand randn [20; 20; 20]%nat 10 (1 / 10)) (NCP_BCU pow svals)
    (mkX (mkArgs (1 / 10000) 10 false) 10 []) (mkDr A (mkT [] [])) 1000.

(** ntucker_demo.py:18-26; the attributes are factors and core (ntucker.py:54-59) *)
Definition ntucker_demo pow svals rand randn (A : list (tensor R)) (g : tensor R) :=
  demo (tucker_synthetic rand randn [20; 20; 20]%nat [10; 10; 10]%nat (4 / 100)) (NTUCKER_BCU pow svals)
    (mkX (mkArgs (1 / 10000) 10 false) 0 [10; 10; 10]%Z) (mkDr A g) 2000.

(** tucker_demo.py:16-24; the default noise is 0.04 (DataGenerator.py:27) *)
Definition tucker_demo svdU rand randn :=
  demo (tucker_synthetic rand randn [20; 20; 20]%nat [10; 10; 10]%nat (4 / 100)) (HOOI svdU)
    (mkX (mkArgs (1 / 10000) 5 false) 0 [10; 10; 10]%Z) (mkDr [] (mkT [] [])) 50.
