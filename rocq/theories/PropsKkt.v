(** Property theorems for the fixed points of the NCP_BCU and NTUCKER_BCU steps (C88), over
    the real numbers; [svals] as in C50.  The steps are not extrapolated and no Lipschitz
    constant is zero (C50_ncp_better, C53_nt_better give sufficient conditions). *)

From Coq Require Import ZArith List Bool Arith Reals Lia Lra.
From Verif Require Import Num Py Tensor TF Fact Spec SpecR SpecTucker SpecCp SpecProx SpecKkt RSums AlsLemmas NcpLemmas NtLemmas SpectralExists KktFacts.
Import ListNotations.
Local Open Scope R_scope.

(** C88: a step leaves the factors unchanged exactly when every factor satisfies the
    first-order conditions of non-negative least squares in it, the others being fixed *)
Theorem C88_ncp_kkt : forall svals (X : tensor R) r s s2 full m, spectral svals -> (0 < r)%nat -> ncp_wf X r s ->
  ncp_step svals X s = Ok (s2, full, m) -> n_Am s = n_A s -> (forall n, (n < ndims X)%nat -> nth n (n_L s2) 0 <> 0) ->
  n_A s2 = n_A s <-> forall n, (n < ndims X)%nat -> kkt (fun B => / 2 * cp_error X r (n_A s) n B) (mat_at (n_A s) n).
Proof. exact c88_ncp_kkt. Qed.
Print Assumptions C88_ncp_kkt.

(** equivalently, when every factor is a minimiser *)
Theorem C88_ncp_minimal : forall svals (X : tensor R) r s s2 full m, spectral svals -> (0 < r)%nat -> ncp_wf X r s ->
  ncp_step svals X s = Ok (s2, full, m) -> n_Am s = n_A s -> (forall n, (n < ndims X)%nat -> nth n (n_L s2) 0 <> 0) ->
  (forall M, In M (n_A s) -> nonneg M) ->
  n_A s2 = n_A s <-> forall n, (n < ndims X)%nat -> minimises (fun B => / 2 * cp_error X r (n_A s) n B) (mat_at (n_A s) n).
Proof. exact c88_ncp_min. Qed.
Print Assumptions C88_ncp_minimal.

(** the error falls at least by the distances moved, weighted by the constants *)
Theorem C88_ncp_decrease : forall svals (X : tensor R) r s s2 full m, spectral svals -> (0 < r)%nat -> ncp_wf X r s ->
  ncp_step svals X s = Ok (s2, full, m) -> n_Am s = n_A s -> (forall n, (n < ndims X)%nat -> nth n (n_L s2) 0 <> 0) ->
  (forall M, In M (n_A s) -> nonneg M) ->
  / 2 * sqdist X full + bigsum (ndims X) (fun n => nth n (n_L s2) 0 / 2 * sqdist (mat_at (n_A s) n) (mat_at (n_A s2) n))
    <= / 2 * sqdist X (cp_tensor r (ones r) (n_A s)).
Proof. exact c88_ncp_decrease. Qed.
Print Assumptions C88_ncp_decrease.

(** so a step that moves lowers the error *)
Theorem C88_ncp_strict : forall svals (X : tensor R) r s s2 full m, spectral svals -> (0 < r)%nat -> ncp_wf X r s ->
  ncp_step svals X s = Ok (s2, full, m) -> n_Am s = n_A s -> (forall n, (n < ndims X)%nat -> nth n (n_L s2) 0 <> 0) ->
  (forall M, In M (n_A s) -> nonneg M) -> n_A s2 <> n_A s -> sqdist X full < sqdist X (cp_tensor r (ones r) (n_A s)).
Proof. exact c88_ncp_strict. Qed.
Print Assumptions C88_ncp_strict.

(** the same for the Tucker model, the core included *)
Theorem C88_nt_kkt : forall svals (X : tensor R) ranks s s1 s2 full m, spectral svals -> wf X -> nonempty ranks -> nt_wf X ranks s ->
  nt_core svals X s = Ok s1 -> nt_fact svals X s1 = Ok (s2, full, m) -> q_Am s = q_A s -> q_gm s = q_g s ->
  (forall n, (n <= ndims X)%nat -> nth n (q_L s2) 0 <> 0) ->
  (q_g s2 = q_g s /\ q_A s2 = q_A s) <->
  (kkt (fun C => / 2 * sqdist X (tucker_tensor C (q_A s))) (q_g s) /\
   forall n, (n < ndims X)%nat -> kkt (fun B => / 2 * sqdist X (tucker_tensor (q_g s) (replace n B (q_A s)))) (mat_at (q_A s) n)).
Proof. exact c88_nt_kkt. Qed.
Print Assumptions C88_nt_kkt.

Theorem C88_nt_minimal : forall svals (X : tensor R) ranks s s1 s2 full m, spectral svals -> wf X -> nonempty ranks -> nt_wf X ranks s ->
  nt_core svals X s = Ok s1 -> nt_fact svals X s1 = Ok (s2, full, m) -> q_Am s = q_A s -> q_gm s = q_g s ->
  (forall n, (n <= ndims X)%nat -> nth n (q_L s2) 0 <> 0) -> nonneg (q_g s) -> (forall M, In M (q_A s) -> nonneg M) ->
  (q_g s2 = q_g s /\ q_A s2 = q_A s) <->
  (minimises (fun C => / 2 * sqdist X (tucker_tensor C (q_A s))) (q_g s) /\
   forall n, (n < ndims X)%nat -> minimises (fun B => / 2 * sqdist X (tucker_tensor (q_g s) (replace n B (q_A s)))) (mat_at (q_A s) n)).
Proof. exact c88_nt_min. Qed.
Print Assumptions C88_nt_minimal.

Theorem C88_nt_decrease : forall svals (X : tensor R) ranks s s1 s2 full m, spectral svals -> wf X -> nonempty ranks -> nt_wf X ranks s ->
  nt_core svals X s = Ok s1 -> nt_fact svals X s1 = Ok (s2, full, m) -> q_Am s = q_A s -> q_gm s = q_g s ->
  (forall n, (n <= ndims X)%nat -> nth n (q_L s2) 0 <> 0) -> nonneg (q_g s) -> (forall M, In M (q_A s) -> nonneg M) ->
  / 2 * sqdist X full + nth (ndims X) (q_L s2) 0 / 2 * sqdist (q_g s) (q_g s2) +
    bigsum (ndims X) (fun n => nth n (q_L s2) 0 / 2 * sqdist (mat_at (q_A s) n) (mat_at (q_A s2) n))
    <= / 2 * sqdist X (tucker_tensor (q_g s) (q_A s)).
Proof. exact c88_nt_decrease. Qed.
Print Assumptions C88_nt_decrease.

Theorem C88_nt_strict : forall svals (X : tensor R) ranks s s1 s2 full m, spectral svals -> wf X -> nonempty ranks -> nt_wf X ranks s ->
  nt_core svals X s = Ok s1 -> nt_fact svals X s1 = Ok (s2, full, m) -> q_Am s = q_A s -> q_gm s = q_g s ->
  (forall n, (n <= ndims X)%nat -> nth n (q_L s2) 0 <> 0) -> nonneg (q_g s) -> (forall M, In M (q_A s) -> nonneg M) ->
  ~ (q_g s2 = q_g s /\ q_A s2 = q_A s) -> sqdist X full < sqdist X (tucker_tensor (q_g s) (q_A s)).
Proof. exact c88_nt_strict. Qed.
Print Assumptions C88_nt_strict.

(** diag(2, 1) of rank 1 from the all-ones factors, at squared distance 3: the step moves *)
Example ex_C88_ncp : exists svals s2 full m, spectral svals /\ ncp_wf Xd 1 sd /\ ncp_step svals Xd sd = Ok (s2, full, m) /\
  n_Am sd = n_A sd /\ (forall n, (n < ndims Xd)%nat -> nth n (n_L s2) 0 <> 0) /\ (forall M, In M (n_A sd) -> nonneg M) /\ n_A s2 <> n_A sd.
Proof.
  destruct spectral_exists as (svals & HS). destruct (ex_c50 svals HS) as (s2 & full & m & E & HL). exists svals, s2, full, m.
  assert (Hn : forall M, In M (n_A sd) -> nonneg M) by (intros M [<-|[<-|[]]] x [<-|[<-|[]]]; lra).
  split; [exact HS|]. split; [apply sd_wf|]. split; [exact E|]. split; [reflexivity|]. split; [exact HL|]. split; [exact Hn|].
  intros EA. pose proof (proj1 (C88_ncp_minimal svals Xd 1 sd s2 full m HS ltac:(lia) sd_wf E eq_refl HL Hn) EA 0%nat ltac:(cbn; lia)) as [_ K].
  specialize (K (mkT [2; 1]%nat [1; 1 / 2]) eq_refl eq_refl ltac:(intros x [<-|[<-|[]]]; lra)).
  revert K. unfold cp_error, sqdist, Xd, sd, Ad, cp_tensor, ones, mat_at, mgen, mget, gen, get. cbn. unfold Rsqr. lra.
Qed.

Example ex_C88_nt : exists svals s1 s2 full m, spectral svals /\ nt_wf Xd [1; 1]%nat td /\
  nt_core svals Xd td = Ok s1 /\ nt_fact svals Xd s1 = Ok (s2, full, m) /\ q_Am td = q_A td /\ q_gm td = q_g td /\
  (forall n, (n <= ndims Xd)%nat -> nth n (q_L s2) 0 <> 0) /\ nonneg (q_g td) /\ (forall M, In M (q_A td) -> nonneg M) /\
  ~ (q_g s2 = q_g td /\ q_A s2 = q_A td).
Proof.
  destruct spectral_exists as (svals & HS). destruct (ex_c53 svals HS) as (s1 & s2 & full & m & E1 & E2 & HL). exists svals, s1, s2, full, m.
  assert (Hn : forall M, In M (q_A td) -> nonneg M) by (intros M [<-|[<-|[]]] x [<-|[<-|[]]]; lra).
  assert (Hg : nonneg (q_g td)) by (intros x [<-|[]]; lra). assert (W : nt_wf Xd [1; 1]%nat td) by apply td_wf.
  split; [exact HS|]. split; [exact W|]. split; [exact E1|]. split; [exact E2|]. split; [reflexivity|]. split; [reflexivity|]. split; [exact HL|].
  split; [exact Hg|]. split; [exact Hn|]. intros EA.
  pose proof (proj1 (C88_nt_minimal svals Xd [1; 1]%nat td s1 s2 full m HS eq_refl ltac:(repeat constructor; discriminate) W E1 E2 eq_refl eq_refl HL Hg Hn) EA) as [_ K].
  destruct (K 0%nat ltac:(cbn; lia)) as [_ K']. specialize (K' (mkT [2; 1]%nat [1; 1 / 2]) eq_refl eq_refl ltac:(intros x [<-|[<-|[]]]; lra)).
  revert K'. unfold sqdist, Xd, td, Ad, tucker_tensor, mat_at, mgen, mget, gen, get. cbn. unfold Rsqr. lra.
Qed.
