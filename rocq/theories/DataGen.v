(** Model of tensorD/demo/DataGenerator.py. The random draws are inputs. *)

From Coq Require Import ZArith List Bool Arith.
From Verif Require Import Num Py Tensor TF Ops Types.
Import ListNotations.

Section DataGen.
  Context {T : Type} {N : Num T}.
  (** conversion of element values (KTensor makes float32 constants of the float64
      draws, type.py:136) *)
  Variable cast : dtype -> T -> T.

  (** np.maximum(0, x) *)
  Definition clip0 (t : tensor T) : tensor T := tf_map (nmax n0) t.

  (** DataGenerator.py:24, 35: np.maximum(0, max_noise * np.random.randn( *N_list)) *)
  Definition noise_of (max_noise : T) (draw : tensor T) : tensor T :=
    tf_map (fun x => nmax n0 (nmul max_noise x)) draw.

  (** DataGenerator.py:16-25  synthetic_data_cp; [rand ii] is the draw
      np.random.rand(N_list[ii], R), [randn] the draw of the noise *)
  Definition synthetic_data_cp (N_list : list nat) (rand : nat -> tensor T) (randn : tensor T)
             (max_noise : T) : res (tensor T) :=
    let matrices := map (fun ii => mkArr NP F64 (clip0 (rand ii))) (seq 0 (length N_list)) in
    do M <- ktensor_init cast matrices None;
    do r <- ktensor_extract M;
    tf_bin nadd (snd r) (noise_of max_noise randn).

  (** DataGenerator.py:28-36  synthetic_data_tucker; [randg] is the draw
      np.random.rand( *Ranks) *)
  Definition synthetic_data_tucker (N_list : list nat) (randg : tensor T) (rand : nat -> tensor T)
             (randn : tensor T) (max_noise : T) : res (tensor T) :=
    let matrices := map (fun ii => mkArr NP F64 (clip0 (rand ii))) (seq 0 (length N_list)) in
    do r <- ttensor_extract (mkArr NP F64 (clip0 randg)) matrices;
    tf_bin nadd (snd r) (noise_of max_noise randn).
End DataGen.
