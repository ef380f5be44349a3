(** Model of the experiment scripts tensorD/ex/cp_ex.py, ncp_ex.py, ntucker_ex.py and tucker_ex.py:
    synthetic data, one decomposition in the default graph of a new process, one line of output for
    every entry of the history.  The random draws, the starting points and the numerical routines
    are inputs; what happens to the output file and the printed lines are not modelled.  The
    numbers are exact. *)

From Coq Require Import ZArith List Bool Arith Reals.
From Verif Require Import Num Py Tensor Types Fact Train DataGen Process.
Import ListNotations.
Local Open Scope R_scope.

(** cp_ex.py:21-36: data, provider, environment with a summary path, object, build_model, train,
    the pairs (iter[0], iter[1]) written *)
Definition experiment (data : res (tensor R)) (c : tensor R -> cls R) (a : xargs R) (d : draws R) (steps : Z) : res (list (R * R)) :=
  do X <- data;
  match run start [CNew (c X) true; CBuild 0 a; CTrain 0 d steps] with
  | (_, Ok hs) => Ok (map (fun it => (fst it, snd it)) (concat hs))
  | (_, Raise e) => Raise e
  end.

(** DataGenerator.py:16-25 with the generator in place of its draws: [rand k s] is what the k-th call
    of np.random.rand returns for the shape s, [randn s] what np.random.randn returns *)
Definition cp_synthetic cast (rand : nat -> list nat -> tensor R) (randn : list nat -> tensor R) (N_list : list nat) (r : nat) (noise : R) : res (tensor R) :=
  synthetic_data_cp cast N_list (fun ii => rand ii [nth ii N_list 0%nat; r]) (randn N_list) noise.
(** DataGenerator.py:27-36: the core is drawn first *)
Definition tucker_synthetic (rand : nat -> list nat -> tensor R) (randn : list nat -> tensor R) (N_list ranks : list nat) (noise : R) : res (tensor R) :=
  synthetic_data_tucker N_list (rand 0%nat ranks) (fun ii => rand (S ii) [nth ii N_list 0%nat; nth ii ranks 0%nat]) (randn N_list) noise.

(** cp_ex.py:21-29: no noise, validation every 50 steps, 600 steps *)
Definition cp_ex cast pinv rand randn (N1 N2 N3 gR dR : nat) (A : list (tensor R)) : res (list (R * R)) :=
  experiment (cp_synthetic cast rand randn [N1; N2; N3] gR 0) (CP_ALS pinv)
    (mkX (mkArgs (1 / 10000) 50 false) dR []) (mkDr A (mkT [] [])) 600.

(** ncp_ex.py:18-26; the default tolerance is 1.0e-4 (ncp.py:20) *)
Definition ncp_ex cast pow svals rand randn (N1 N2 N3 gR dR : nat) (A : list (tensor R)) : res (list (R * R)) :=
  experiment (cp_synthetic cast rand randn [N1; N2; N3] gR 0) (NCP_BCU pow svals)
    (mkX (mkArgs (1 / 10000) 200 false) dR []) (mkDr A (mkT [] [])) 6000.

(** ntucker_ex.py:18-26 *)
Definition ntucker_ex pow svals rand randn (N1 N2 N3 gR dR : nat) (A : list (tensor R)) (g : tensor R) : res (list (R * R)) :=
  experiment (tucker_synthetic rand randn [N1; N2; N3] [gR; gR; gR] 0) (NTUCKER_BCU pow svals)
    (mkX (mkArgs (1 / 10000) 500 false) 0 (map Z.of_nat [dR; dR; dR])) (mkDr A g) 10000.

(** tucker_ex.py:17-25; the noise is an argument here *)
Definition tucker_with_noise (noise : R) svdU rand randn (N1 N2 N3 gR dR : nat) : res (list (R * R)) :=
  experiment (tucker_synthetic rand randn [N1; N2; N3] [gR; gR; gR] noise) (HOOI svdU)
    (mkX (mkArgs (1 / 10000) 10 false) 0 (map Z.of_nat [dR; dR; dR])) (mkDr [] (mkT [] [])) 100.
(** tucker_ex.py:17 passes no noise, so the default of DataGenerator.py:27 is used *)
Definition tucker_ex := tucker_with_noise (4 / 100).
