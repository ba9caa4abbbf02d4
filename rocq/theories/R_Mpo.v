(** * R_Mpo: what fails about the Hamiltonians *)
From Verif Require Import Prelude Algebra Tensor Res Mpo MpoSpec.
From Coq Require Import ZArith.
Set Implicit Arguments.
Unset Strict Implicit.

(** one site: the constructors return two tensors, so the operator acts on two sites *)
Theorem C37_one_site_refuted : exists Jx Bz : list Z, length Bz = 1 /\ 1 <= length Jx /\
  exists ts, finite_tfi (R := Z_csr) (-1)%Z Jx Bz = Ok ts /\ length ts = 2 /\
    mpo_entry ts [0; 0] [1; 1] <> 0%Z.
Proof.
  exists [3%Z], [7%Z]. split; [reflexivity|]. split; [auto|].
  eexists. split; [reflexivity|]. split; [reflexivity|]. vm_compute. discriminate.
Qed.
Print Assumptions C37_one_site_refuted.
(** and without couplings (there is no bond) they raise *)
Theorem C37_one_site_no_coupling_refuted : exists Bz : list Z, length Bz = 1 /\ finite_tfi (R := Z_csr) (-1)%Z [] Bz = Raise.
Proof. exists [7%Z]. split; reflexivity. Qed.
Print Assumptions C37_one_site_no_coupling_refuted.
