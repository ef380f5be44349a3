(** Property theorems for the data a model trains on (C108). *)

From Coq Require Import ZArith List Bool Arith Lia.
From Verif Require Import Num Py Tensor Fact Train SpecTrain Provide SpecProvide ProvideFacts.
Import ListNotations.

(** C108: with a provider that always returns the same array, and nobody changing the array,
    every script of builds, trainings and predictions behaves as the model of C36-C43 with the
    entries of that array as data *)
Theorem C108_array : forall T (A R : Type) unbuilt resets build_chk (body : tensor T -> A -> R -> bool -> Z -> pub T -> pub T * res (hist T)) (P : provider T) l,
  (forall n, P n = Ok (PArr l)) -> forall cs, writes cs = false -> forall s, o_built (s_obj s) = None ->
  let q := ecalls unbuilt resets build_chk body P s cs in
  let r := do_calls build_chk (obj_train unbuilt resets (body (s_heap s l))) (s_world s) (plain_obj (s_obj s)) (plain cs) in
  s_world (fst q) = fst (fst r) /\ plain_obj (s_obj (fst q)) = snd (fst r) /\ snd q = snd r.
Proof.
  intros T A R unbuilt resets build_chk body P l HP cs HW s HN. apply (script_array unbuilt resets build_chk body P l HP cs HW s).
  intros a id H. rewrite HN in H. discriminate H.
Qed.
Print Assumptions C108_array.

(** build_model calls full_tensor twice, nothing else calls it *)
Theorem C108_calls : forall T (A R : Type) unbuilt resets build_chk (body : tensor T -> A -> R -> bool -> Z -> pub T -> pub T * res (hist T)) (P : provider T) cs,
  shaped P -> (forall a, build_chk a = Ok tt) -> forall s, s_calls (fst (ecalls unbuilt resets build_chk body P s cs)) = s_calls s + 2 * builds cs.
Proof. exact @script_calls. Qed.
Print Assumptions C108_calls.

(** training uses the array that the second call returned when the model was built, whatever the
    provider returns later, with the entries the array has at the time of training *)
Theorem C108_data : forall T (A R : Type) unbuilt resets build_chk (body : tensor T -> A -> R -> bool -> Z -> pub T -> pub T * res (hist T)) (P : provider T) s0 a id cs rnd steps l1 l2,
  build_chk a = Ok tt -> P (s_calls s0) = Ok (PArr l1) -> P (S (s_calls s0)) = Ok (PArr l2) -> builds cs = 0 ->
  let X := contents cs l2 (s_heap s0 l2) in
  let s := fst (ecalls unbuilt resets build_chk body P s0 (EBuild a id :: cs)) in
  let q := etrain unbuilt resets body (s_heap s) (s_world s) (s_obj s) rnd steps in
  (shp X = shp (s_heap s0 l1) ->
     plain_obj (fst q) = fst (obj_train unbuilt resets (body X) (s_world s) (plain_obj (s_obj s)) rnd steps) /\
     snd q = snd (obj_train unbuilt resets (body X) (s_world s) (plain_obj (s_obj s)) rnd steps)) /\
  (shp X <> shp (s_heap s0 l1) -> w_path (s_world s) = true -> snd q = Raise ValueError).
Proof. exact @data_at_train. Qed.
Print Assumptions C108_data.

(** provider.py documents full_tensor as returning a tf.Tensor.  With such a provider the model
    can be built, but every training raises TypeError and publishes nothing *)
Theorem C108_documented_refuted : forall T (A R : Type) unbuilt resets build_chk (body : tensor T -> A -> R -> bool -> Z -> pub T -> pub T * res (hist T)) (P : provider T) s a id cs rnd steps,
  (forall n, exists X, P n = Ok (PTensor X)) -> build_chk a = Ok tt -> builds cs = 0 ->
  let s' := fst (ecalls unbuilt resets build_chk body P s (EBuild a id :: cs)) in
  let q := etrain unbuilt resets body (s_heap s') (s_world s') (s_obj s') rnd steps in
  o_built (s_obj s') <> None /\ snd q = Raise TypeError /\ o_pub (fst q) = (if resets then set_finish false (o_pub (s_obj s')) else o_pub (s_obj s')).
Proof. exact @tensor_provider'. Qed.
Print Assumptions C108_documented_refuted.

(** PITF asks for get_shape, which no array has: no value can be used by PITF and by the other
    classes; the PITF script of the guide evaluates an array and raises AttributeError *)
Theorem C108_pitf : forall T (h : heap T) (P : provider T) n v, P n = Ok v ->
  ((exists s X, feed h s v = Ok X) -> snd (pitf_data P n) = Raise AttributeError) /\
  ((exists l, v = PArr l) -> snd (eval_data P n) = Raise AttributeError) /\
  (forall X, v = PTensor X -> snd (pitf_data P n) = Ok (shp X) /\ snd (eval_data P n) = Ok X).
Proof. exact @pitf_values. Qed.
Print Assumptions C108_pitf.

(** the base class: build_model raises NotImplementedError and changes nothing *)
Theorem C108_base : forall T (A : Type) (build_chk : A -> res unit) (h : heap T) n w (o : eobj T A) a id, build_chk a = Ok tt ->
  ebuild build_chk h base_provider n w o a id = (S n, (w, o, Raise NotImplementedErr)).
Proof. exact @base_build. Qed.
Print Assumptions C108_base.

(** a build that fails changes neither the object nor the graph: arguments of a wrong type are
    refused before the provider is asked; a list has no shape; the provider's own exception
    passes through, after one call *)
Theorem C108_build_fails : forall T (A : Type) (build_chk : A -> res unit) (P : provider T) (h : heap T) n w (o : eobj T A) a id,
  (forall e, build_chk a = Raise e -> ebuild build_chk h P n w o a id = (n, (w, o, Raise e))) /\
  (build_chk a = Ok tt -> (forall X, P n = Ok (PList X) -> ebuild build_chk h P n w o a id = (S n, (w, o, Raise AttributeError))) /\
                          (forall e, P n = Raise e -> ebuild build_chk h P n w o a id = (S n, (w, o, Raise e)))).
Proof. exact @build_fails. Qed.
Print Assumptions C108_build_fails.

(** a list returned by the second call is fed like an array that nobody changes *)
Theorem C108_list : forall T (A R : Type) unbuilt resets build_chk (body : tensor T -> A -> R -> bool -> Z -> pub T -> pub T * res (hist T)) (P : provider T) s0 a id cs rnd steps l1 X,
  build_chk a = Ok tt -> P (s_calls s0) = Ok (PArr l1) -> P (S (s_calls s0)) = Ok (PList X) -> builds cs = 0 ->
  let s := fst (ecalls unbuilt resets build_chk body P s0 (EBuild a id :: cs)) in
  let q := etrain unbuilt resets body (s_heap s) (s_world s) (s_obj s) rnd steps in
  (shp X = shp (s_heap s0 l1) ->
     plain_obj (fst q) = fst (obj_train unbuilt resets (body X) (s_world s) (plain_obj (s_obj s)) rnd steps) /\
     snd q = snd (obj_train unbuilt resets (body X) (s_world s) (plain_obj (s_obj s)) rnd steps)) /\
  (shp X <> shp (s_heap s0 l1) -> w_path (s_world s) = true -> snd q = Raise ValueError).
Proof. exact @list_fed. Qed.
Print Assumptions C108_list.

(** ** Examples *)
(** CP_ALS over the integers: the array is overwritten between build_model and train; a later
    call of the provider would return another array *)
Definition ex_heap : heap Z := fun l => match l with 0 => mkT [2; 2] [1; 2; 3; 4]%Z | _ => mkT [2; 2] [0; 0; 0; 7]%Z end.
Definition ex_prov : provider Z := fun n => Ok (PArr (if Nat.leb n 1 then 0 else 1)).
Definition ex_X : tensor Z := mkT [2; 2] [5; 0; 0; 5]%Z.
Definition ex_rnd : list (tensor Z) := [mkT [2; 1] [1; 1]%Z; mkT [2; 1] [1; 1]%Z].
Example ex_C108_data :
  let cs := [EWrite 0 ex_X; EPredict [0; 0]%Z] in
  let s0 := mkES ex_heap 0 (mkW [] true) (mkObj None pub0) in
  let a := (mkArgs 0%Z 1%Z false, 1) in
  ex_prov (s_calls s0) = Ok (PArr 0) /\ ex_prov (S (s_calls s0)) = Ok (PArr 0) /\ builds cs = 0 /\ contents cs 0 (s_heap s0 0) = ex_X /\
  exists h, snd (ecalls TypeError true (fun _ => Ok tt) (cp_body (fun M => M)) ex_prov s0 (EBuild a 3 :: cs ++ [ETrain ex_rnd 1%Z])) = [Ok h] /\ h <> [].
Proof. cbv zeta. repeat (split; [reflexivity|]). eexists. split; [vm_compute; reflexivity|discriminate]. Qed.
Example ex_C108_shaped : shaped ex_prov /\ exists (P : provider Z), forall n, exists X, P n = Ok (PTensor X).
Proof. split; [intros n; eexists; split; [reflexivity|intros X H; discriminate H]|]. exists (fun _ => Ok (PTensor ex_X)). intros n. exists ex_X. reflexivity. Qed.
(** an array for the shape, a list for the data *)
Example ex_C108_list :
  let P : provider Z := fun n => Ok (if Nat.even n then PArr 0 else PList ex_X) in
  let s0 := mkES ex_heap 0 (mkW [] true) (mkObj None pub0) in
  let a := (mkArgs 0%Z 1%Z false, 1) in
  P (s_calls s0) = Ok (PArr 0) /\ P (S (s_calls s0)) = Ok (PList ex_X) /\ shp ex_X = shp (s_heap s0 0) /\
  exists h, snd (ecalls TypeError true (fun _ => Ok tt) (cp_body (fun M => M)) P s0 [EBuild a 3; ETrain ex_rnd 1%Z]) = [Ok h] /\ h <> [].
Proof. cbv zeta. repeat (split; [reflexivity|]). eexists. split; [vm_compute; reflexivity|discriminate]. Qed.
Example ex_C108_build_fails : exists (build_chk : bool -> res unit) (P : provider Z),
  build_chk false = Raise AssertionErr /\ build_chk true = Ok tt /\ P 0 = Ok (PList ex_X) /\ P 1 = Raise IndexError.
Proof. exists (fun b : bool => if b then Ok tt else Raise AssertionErr), (fun n => match n with 0 => Ok (PList ex_X) | _ => Raise IndexError end). repeat split. Qed.
