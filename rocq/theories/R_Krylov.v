(** * R_Krylov: what [eigsh_lanczos] does not do *)
From Coq Require Import QArith Qcanon ZArith.
From Verif Require Import Prelude Algebra Krylov KrylovFacts KrylovSpec KrylovInst KrylovExamples.
Open Scope nat_scope.

Definition V2q : ips Q_cfd := tup_ips Q_cfd 2.
Definition v34 : V2q := (zq 3 1, (zq 4 1, tt)).
Definition idy (alias : bool) : V2q -> V2q * bool := fun x => (x, alias).
Definition eigh_1 := @one_eigh Q_cfd [[zq 1 1]] ([zq 1 1], [[zq 1 1]]).
Definition run_id alias numeig reortho := lanczos (idy alias) eigh_1 numeig (zq 1 1000) (zq 1 1000) 20 reortho 2 v34.

(** An operator that returns its argument (the identity, [lambda x: x]) is Hermitian, but the update
    [A_vector_n -= ...] then overwrites the Krylov vector: the eigenvector returned is 0/0.  A copy of the same
    array gives the right answer. *)
Theorem C49_operator_returning_its_argument_refuted :
  exists (A B : V2q -> V2q * bool), hermitian (fun x => fst (A x)) /\ (forall x, fst (A x) = fst (B x)) /\
    eigh_contract eigh_1 /\
    lanczos A eigh_1 1 (zq 1 1000) (zq 1 1000) 20 false 2 v34 = Undef /\
    (exists w0 r, lanczos B eigh_1 1 (zq 1 1000) (zq 1 1000) 20 false 2 v34 = Val ([zq 1 1], [(zq 3 5, (zq 4 5, tt))], w0, r)).
Proof.
  exists (idy true), (idy false). split; [intros x y; reflexivity|]. split; [reflexivity|].
  split; [apply one_contract; vm_compute; reflexivity|]. split; [vm_compute; reflexivity|].
  do 2 eexists. vm_compute. reflexivity.
Qed.
Print Assumptions C49_operator_returning_its_argument_refuted.

(** The array passed as [initial_state] is normalised in place. *)
Theorem C49_initial_state_unchanged_refuted :
  exists A vals vecs w0 r, lanczos A eigh_1 1 (zq 1 1000) (zq 1 1000) 20 false 2 v34 = Val (vals, vecs, w0, r) /\ w0 <> v34.
Proof.
  exists (idy false). do 4 eexists. split; [vm_compute; reflexivity|].
  intros H. apply (f_equal (fun x : V2q => this (fst x))) in H. vm_compute in H. discriminate.
Qed.
Print Assumptions C49_initial_state_unchanged_refuted.

(** Fewer than [numeig] pairs are returned when the Krylov space is small, although the operator has them
    ([reorthogonalize=True], both eigenvalues of the 2 x 2 identity asked for). *)
Theorem C49_numeig_pairs_refuted :
  exists A vals vecs w0 r, hermitian (fun x => fst (A x)) /\ (forall x, snd (A x) = false) /\
    lanczos A eigh_1 2 (zq 1 1000) (zq 1 1000) 20 true 2 v34 = Val (vals, vecs, w0, r) /\ length vals = 1.
Proof.
  exists (idy false). do 4 eexists. split; [intros x y; reflexivity|]. split; [reflexivity|].
  split; [vm_compute; reflexivity|reflexivity].
Qed.
Print Assumptions C49_numeig_pairs_refuted.

(** The eigenvalue returned need not be the lowest one: diag(0, 1) and the vector (0, 2). *)
Definition d01 : V2q -> V2q * bool := fun x => (rows 2 [[zq 0 1; zq 0 1]; [zq 0 1; zq 1 1]] x, false).
Theorem C49_lowest_eigenvalue_refuted :
  exists init : V2q, exists x w0 y r, hermitian (fun x => fst (d01 x)) /\ ip y y = zq 1 1 /\ fst (d01 y) = vs (zq 0 1) y /\
    lanczos d01 eigh_1 1 (zq 1 1000) (zq 1 1000) 20 false 2 init = Val ([zq 1 1], [x], w0, r).
Proof.
  exists (zq 0 1, (zq 2 1, tt)). do 2 eexists. exists (zq 1 1, (zq 0 1, tt)). eexists.
  split; [apply (@rows_herm Q_cfd 2); intros i j Hi Hj; apply ceqb_eq; revert i j Hi Hj; apply all2_ok; vm_compute; reflexivity|].
  split; [vm_compute; reflexivity|]. split; [vm_compute; reflexivity|]. vm_compute. reflexivity.
Qed.
Print Assumptions C49_lowest_eigenvalue_refuted.

(** The zero vector is divided by its norm. *)
Theorem C49_zero_state_refuted :
  exists A, hermitian (fun x => fst (A x)) /\ (forall x, snd (A x) = false) /\
    lanczos A eigh_1 1 (zq 1 1000) (zq 1 1000) 20 false 2 (vz : V2q) = Undef.
Proof. exists (idy false). split; [intros x y; reflexivity|]. split; [reflexivity|]. vm_compute. reflexivity. Qed.
Print Assumptions C49_zero_state_refuted.
