(** * C69: the Ising Hamiltonians of the examples *)
From Coq Require Import ZArith.
From Verif Require Import Prelude Algebra Tensor MpoSpec WaveSpec Ising IsingSpec IsingFacts.
Set Implicit Arguments.
Unset Strict Implicit.
Local Open Scope nat_scope.

(** the two-site terms of [ising_hamiltonian], each acting on its pair of sites, add up to the Ising Hamiltonian *)
Theorem C69_chain (R : csr) (mone : R) N (psi : tensor R) s d : 2 <= N -> spins N s ->
  nsum (N - 1) (fun n => elt (act [n; S n] (nth n (ising_hamiltonian mone N) d) psi) s) = ising mone N psi s.
Proof. exact (@ising_ok R mone N psi s d). Qed.
Print Assumptions C69_chain.

(** there is one term for each pair, of the shape that the Trotter evolution of C61 needs *)
Theorem C69_shapes (R : csr) (mone : R) N (psi : tensor R) : 2 <= N -> shape psi = repeat 2 N ->
  chain (ising_hamiltonian mone N) psi.
Proof. exact (@ising_chain R mone N psi). Qed.
Print Assumptions C69_shapes.

(** [ham_ising] is X Z X - (X X 1 + 1 X X) / 2 on three spins *)
Theorem C69_mera (R : csr) (half mone : R) : shape (ham_ising half mone) = [2; 2; 2; 2; 2; 2] /\
  forall s s', spins 3 s -> spins 3 s' -> elt (ham_ising half mone) (s ++ s') = ising3 half mone s s'.
Proof. exact (conj (@ham_ising_shape R half mone) (@ham_ising_ok R half mone)). Qed.
Print Assumptions C69_mera.

(** the Kronecker product used there: rows and columns are numbered with the second factor fastest *)
Theorem C69_kron (R : csr) (a b : tensor R) m n p q i j k l : shape a = [m; n] -> shape b = [p; q] -> k < p -> l < q ->
  shape (np_kron a b) = [m * p; n * q] /\ elt (np_kron a b) [i * p + k; j * q + l] = elt a [i; j] *! elt b [k; l].
Proof. exact (@np_kron_ok R a b m n p q i j k l). Qed.
Print Assumptions C69_kron.

Example C69_kron_example :
  to_list (np_kron (@of_list Z_csr [2; 1] [2; 3]%Z) (@of_list Z_csr [1; 3] [5; 7; 11]%Z)) = [10; 14; 22; 15; 21; 33]%Z.
Proof. vm_compute. reflexivity. Qed.

(** four spins in the state 0 1 1 0 of a wavefunction with entries 1, 2, 3, ..., 16 in row-major order:
    the neighbours are 1 0 1 0 (11), 0 0 0 0 (1) and 0 1 0 1 (6), the signs add up to zero *)
Example C69_example :
  let psi := @of_list Z_csr [2; 2; 2; 2] (map Z.of_nat (seq 1 16)) in
  spins 4 [0; 1; 1; 0] /\ spins 3 [1; 1; 0] /\ shape psi = repeat 2 4 /\
  @ising Z_csr (-1)%Z 4 psi [0; 1; 1; 0] = (-18)%Z /\ @ising Z_csr (-1)%Z 4 psi [0; 1; 0; 0] = (-(9 + 3 + 8 + 2 * 5))%Z /\
  length (@ising_hamiltonian Z_csr (-1)%Z 4) = 3 /\
  elt (@ham_ising Z_csr 5%Z (-1)%Z) [1; 1; 0; 0; 1; 1] = (-1)%Z /\ elt (@ham_ising Z_csr 5%Z (-1)%Z) [1; 1; 0; 0; 0; 0] = (-5)%Z.
Proof.
  cbv zeta. split; [split; [reflexivity|repeat constructor]|]. split; [split; [reflexivity|repeat constructor]|].
  repeat split; vm_compute; reflexivity.
Qed.
