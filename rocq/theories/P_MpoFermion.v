(** * P_MpoFermion: C55, the Hamiltonian FiniteFreeFermion2D *)
From Verif Require Import Prelude Algebra Tensor Res Mpo MpoSpec MpoFermion MpoFermionSpec MpoFermionFacts.
From Coq Require Import ZArith.
Set Implicit Arguments.
Unset Strict Implicit.

(** for every lattice of at least two sites the constructor succeeds with one tensor per site, and every matrix element of their
    contraction is that of the hopping Hamiltonian with fermionic signs. [mone] is the constant -1 of the scalars *)
Theorem C55_free_fermion (R : csr) (mone : R) (t1 t2 v : R) N1 N2 :
  mone *! mone = r1 -> 1 <= N1 -> 2 <= N1 * N2 ->
  exists ts, finite_free_fermion_2d mone t1 t2 v N1 N2 = Ok ts /\ length ts = N1 * N2 /\
    forall s s', spins (N1 * N2) s -> spins (N1 * N2) s' -> mpo_entry ts s s' = H_ff mone t1 t2 v N1 N2 s s'.
Proof. intros H1 H2 H3. exact (@ff_ok R mone H1 t1 t2 v N1 N2 H2 H3). Qed.
Print Assumptions C55_free_fermion.

Definition z_entry (r : res (list (tensor Z_csr))) (s s' : list nat) : Z :=
  match r with Ok ts => mpo_entry ts s s' | _ => (-99)%Z end.
(** t1 = 2, t2 = 3, v = 5 on a 2 x 2 lattice: sites 0 1 are the first column, 2 3 the second.
    The horizontal hop 0 - 2 passes site 1; 1 - 2 is no bond of the lattice *)
Example C55_example :
  let r := finite_free_fermion_2d (R := Z_csr) (-1)%Z 2%Z 3%Z 5%Z 2 2 in
  (exists ts, r = Ok ts /\ map (@shape Z_csr) ts = [[1; 6; 2; 2]; [6; 6; 2; 2]; [6; 6; 2; 2]; [6; 1; 2; 2]]) /\
  z_entry r [1; 1; 0; 1] [1; 1; 0; 1] = 15%Z /\
  z_entry r [0; 1; 1; 0] [1; 1; 0; 0] = (-3)%Z /\
  z_entry r [1; 0; 0; 1] [0; 0; 1; 1] = 3%Z /\
  z_entry r [1; 0; 0; 0] [0; 1; 0; 0] = 2%Z /\
  z_entry r [0; 1; 0; 0] [0; 0; 1; 0] = 0%Z.
Proof.
  cbv zeta. split; [eexists; split; [reflexivity|]; reflexivity|].
  repeat split; vm_compute; reflexivity.
Qed.
(** the specification has the fermionic signs *)
Example C55_spec_example : hop (R := Z_csr) (-1)%Z 0 2 [1; 1; 0] [0; 1; 1] = (-1)%Z /\ hop (R := Z_csr) (-1)%Z 0 2 [1; 0; 0] [0; 0; 1] = 1%Z /\
  hop (R := Z_csr) (-1)%Z 1 1 [0; 1; 0] [0; 1; 0] = 1%Z.
Proof. repeat split. Qed.
