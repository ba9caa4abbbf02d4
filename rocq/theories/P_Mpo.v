(** * P_Mpo: C37, the Hamiltonians FiniteXXZ and FiniteTFI *)
From Verif Require Import Prelude Algebra Tensor Res Mpo MpoSpec MpoFacts MpoMain.
From Coq Require Import ZArith QArith Qcanon.
Set Implicit Arguments.
Unset Strict Implicit.
Local Open Scope nat_scope.

(** for every chain of N >= 2 sites the constructor succeeds with N tensors, and every matrix element of their contraction
    is that of the XXZ Hamiltonian. [half] and [mone] are the constants 1/2 and -1 of the scalars *)
Theorem C37_xxz (R : csr) (half mone : R) Jz Jxy Bz N :
  length Bz = N -> 2 <= N -> N - 1 <= length Jz -> N - 1 <= length Jxy ->
  exists ts, finite_xxz half mone Jz Jxy Bz = Ok ts /\ length ts = N /\
    forall s s', spins N s -> spins N s' ->
      mpo_entry ts s s' = H_xxz half mone (fun n => nth n Jz r0) (fun n => nth n Jxy r0) (fun n => nth n Bz r0) N s s'.
Proof. apply xxz_ok. Qed.
Print Assumptions C37_xxz.

Theorem C37_tfi (R : csr) (mone : R) Jx Bz N : length Bz = N -> 2 <= N -> N - 1 <= length Jx ->
  exists ts, finite_tfi mone Jx Bz = Ok ts /\ length ts = N /\
    forall s s', spins N s -> spins N s' ->
      mpo_entry ts s s' = H_tfi mone (fun n => nth n Jx r0) (fun n => nth n Bz r0) N s s'.
Proof. apply tfi_ok. Qed.
Print Assumptions C37_tfi.

(** the rationals *)
Definition Qc_csr : csr.
Proof. refine (@CSR Qc 0%Qc 1%Qc Qcplus Qcmult _). constructor; intros; ring. Defined.
Definition q (n : Z) (d : positive) : Qc_csr := Q2Qc (n # d).
Definition mono (r : res (list (tensor Qc_csr))) (s s' : list nat) : Q :=
  match r with Ok ts => this (mpo_entry ts s s') | _ => (-1 # 7)%Q end.
(** Jz = (1, 2), Jxy = (3, 5), Bz = (7, 11, 13); <up down up| H |up down up> = -1/4 - 2/4 + (7 - 11 + 13)/2 *)
Example C37_xxz_example :
  let r := finite_xxz (q 1 2) (q (-1) 1) [q 1 1; q 2 1] [q 3 1; q 5 1] [q 7 1; q 11 1; q 13 1] in
  (exists ts, r = Ok ts /\ map (@shape Qc_csr) ts = [[1; 5; 2; 2]; [5; 5; 2; 2]; [5; 1; 2; 2]]) /\
  mono r [1; 0; 1] [1; 0; 1] = (15 # 4)%Q /\ mono r [1; 0; 1] [0; 1; 1] = (3 # 2)%Q /\
  mono r [1; 0; 1] [1; 1; 0] = (5 # 2)%Q /\ mono r [1; 0; 1] [0; 0; 0] = 0%Q.
Proof.
  cbv zeta. split; [eexists; split; [reflexivity|]; reflexivity|].
  repeat split; vm_compute; reflexivity.
Qed.
Example C37_tfi_example :
  let r := finite_tfi (q (-1) 1) [q 2 1; q 3 1] [q 7 1; q 11 1; q 13 1] in
  mono r [1; 0; 1] [1; 0; 1] = 9%Q /\ mono r [1; 0; 1] [0; 1; 1] = 2%Q /\ mono r [1; 0; 1] [1; 1; 0] = 3%Q /\
  mono r [1; 0; 1] [0; 0; 0] = 0%Q.
Proof. cbv zeta. repeat split; vm_compute; reflexivity. Qed.
