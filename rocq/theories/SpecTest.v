(** The NumPy expressions the unit tests compare with (tensorD/base/test). *)

From Coq Require Import List Arith.
From Verif Require Import Num Tensor Spec.
Import ListNotations.

Section S.
  Context {T : Type} {N : Num T}.

  (** np.reshape *)
  Definition np_reshape (s : list nat) (t : tensor T) : tensor T := mkT s (dat t).

  (** np.transpose and np.einsum with the axes of the tests, entry by entry *)
  Definition np_transpose_10 (t : tensor T) : tensor T :=
    gen (pick [1; 0] (shp t)) (fun j => match j with [b; a] => get t [a; b] | _ => n0 end).
  Definition np_transpose_120 (t : tensor T) : tensor T :=
    gen (pick [1; 2; 0] (shp t)) (fun j => match j with [b; c; a] => get t [a; b; c] | _ => n0 end).
  Definition np_transpose_210 (t : tensor T) : tensor T :=
    gen (pick [2; 1; 0] (shp t)) (fun j => match j with [c; b; a] => get t [a; b; c] | _ => n0 end).
  Definition np_transpose_1230 (t : tensor T) : tensor T :=
    gen (pick [1; 2; 3; 0] (shp t)) (fun j => match j with [b; c; d; a] => get t [a; b; c; d] | _ => n0 end).
  Definition np_transpose_354210 (t : tensor T) : tensor T :=
    gen (pick [3; 5; 4; 2; 1; 0] (shp t)) (fun j => match j with [d; f; e; c; b; a] => get t [a; b; c; d; e; f] | _ => n0 end).
  Definition np_einsum_abcdefg_egfdcba (t : tensor T) : tensor T :=
    gen (pick [4; 6; 5; 3; 2; 1; 0] (shp t)) (fun j => match j with [e; g; f; d; c; b; a] => get t [a; b; c; d; e; f; g] | _ => n0 end).

  (** wxyz,xb,yc->wbcz *)
  Definition np_einsum_ttm (X B C : tensor T) : tensor T :=
    gen [nth 0 (shp X) 0; ncols B; ncols C; nth 3 (shp X) 0] (fun i => match i with
      | [w; b; c; z] => bigsum (nrows B) (fun x => bigsum (nrows C) (fun y => nmul (nmul (get X [w; x; y; z]) (mget B x b)) (mget C y c)))
      | _ => n0 end).
  (** np.matmul *)
  Definition np_matmul (A B : tensor T) : tensor T :=
    gen [nrows A; ncols B] (fun i => match i with [p; q] => bigsum (nrows B) (fun k => nmul (mget A p k) (mget B k q)) | _ => n0 end).
  (** ijk,klm->ijlm *)
  Definition np_einsum_mul (A B : tensor T) : tensor T :=
    gen [nth 0 (shp A) 0; nth 1 (shp A) 0; nth 1 (shp B) 0; nth 2 (shp B) 0] (fun i => match i with
      | [i; j; l; m] => bigsum (nth 0 (shp B) 0) (fun k => nmul (get A [i; j; k]) (get B [k; l; m]))
      | _ => n0 end).
  (** ijk,kjm->im *)
  Definition np_einsum_mul2 (A B : tensor T) : tensor T :=
    gen [nth 0 (shp A) 0; nth 2 (shp B) 0] (fun i => match i with
      | [i; m] => bigsum (nth 2 (shp A) 0) (fun k => bigsum (nth 1 (shp A) 0) (fun j => nmul (get A [i; j; k]) (get B [k; j; m])))
      | _ => n0 end).
  (** np.kron of two matrices *)
  Definition np_kron (A B : tensor T) : tensor T :=
    gen [nrows A * nrows B; ncols A * ncols B] (fun i => match i with
      | [p; q] => nmul (mget A (p / nrows B) (q / ncols B)) (mget B (p mod nrows B) (q mod ncols B))
      | _ => n0 end).
  (** az,bz,cz->abcz *)
  Definition np_einsum_khatri (A B C : tensor T) : tensor T :=
    gen [nrows A; nrows B; nrows C; ncols A] (fun i => match i with
      | [a; b; c; z] => nmul (nmul (mget A a z) (mget B b z)) (mget C c z)
      | _ => n0 end).
  (** abcd,bcef,gfeh->adgh *)
  Definition np_einsum_dmul (A B C : tensor T) : tensor T :=
    gen [nth 0 (shp A) 0; nth 3 (shp A) 0; nth 0 (shp C) 0; nth 3 (shp C) 0] (fun i => match i with
      | [a; d; g; h] =>
          bigsum (nth 0 (shp B) 0) (fun b => bigsum (nth 1 (shp B) 0) (fun c =>
          bigsum (nth 2 (shp B) 0) (fun e => bigsum (nth 3 (shp B) 0) (fun f =>
            nmul (nmul (get A [a; b; c; d]) (get B [b; c; e; f])) (get C [g; f; e; h])))))
      | _ => n0 end).
  (** xyz,ax,by,cz->abc *)
  Definition np_einsum_tucker (G A B C : tensor T) : tensor T :=
    gen [nrows A; nrows B; nrows C] (fun i => match i with
      | [a; b; c] =>
          bigsum (nth 0 (shp G) 0) (fun x => bigsum (nth 1 (shp G) 0) (fun y => bigsum (nth 2 (shp G) 0) (fun z =>
            nmul (nmul (nmul (get G [x; y; z]) (mget A a x)) (mget B b y)) (mget C c z))))
      | _ => n0 end).
  (** entrywise NumPy arithmetic *)
  Definition np_map2 (f : T -> T -> T) (a b : tensor T) : tensor T := gen (shp a) (fun i => f (get a i) (get b i)).
End S.
