(** * R_MpoFermion: what fails about FiniteFreeFermion2D *)
From Verif Require Import Prelude Algebra Tensor Res Mpo MpoSpec MpoFermion.
From Coq Require Import ZArith.
Set Implicit Arguments.
Unset Strict Implicit.

(** a lattice of one site gives an operator on two sites, which moves particles between them *)
Theorem C55_one_site_refuted : exists (t1 t2 v : Z) (N1 N2 : nat), N1 * N2 = 1 /\
  exists ts, finite_free_fermion_2d (R := Z_csr) (-1)%Z t1 t2 v N1 N2 = Ok ts /\ length ts = 2 /\
    mpo_entry ts [0; 1] [1; 0] <> 0%Z.
Proof.
  exists 2%Z, 3%Z, 5%Z, 1, 1. split; [reflexivity|].
  eexists. split; [reflexivity|]. split; [reflexivity|]. vm_compute. discriminate.
Qed.
Print Assumptions C55_one_site_refuted.
(** a lattice without columns is not rejected: two tensors *)
Theorem C55_empty_refuted : exists (t1 t2 v : Z) (N1 N2 : nat), N1 * N2 = 0 /\
  exists ts, finite_free_fermion_2d (R := Z_csr) (-1)%Z t1 t2 v N1 N2 = Ok ts /\ length ts = 2 /\ mpo_entry ts [1; 1] [1; 1] <> 0%Z.
Proof.
  exists 2%Z, 3%Z, 5%Z, 3, 0. split; [reflexivity|].
  eexists. split; [reflexivity|]. split; [reflexivity|]. vm_compute. discriminate.
Qed.
Print Assumptions C55_empty_refuted.
