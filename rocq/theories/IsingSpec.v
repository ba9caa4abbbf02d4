(** * IsingSpec: the transverse field Ising model on wavefunctions of spins *)
From Verif Require Import Prelude Algebra Tensor MpoSpec.
Set Implicit Arguments.
Unset Strict Implicit.

Section Spec.
  Context {R : csr}.
  Variables half mone : R.
  (** the state with the spins at the sites [l] turned over *)
  Definition flip (l : list nat) (s : list nat) : list nat :=
    map (fun j => if existsb (Nat.eqb j) l then 1 - nth j s 0 else nth j s 0) (seq 0 (length s)).
  (** 1 for the first state of a spin, -1 for the second *)
  Definition sign (i : nat) : R := if i =? 0 then r1 else mone.
  (** (H psi)(s) for H = - sum of X_n X_n+1 - sum of Z_n *)
  Definition ising (N : nat) (psi : tensor R) (s : list nat) : R :=
    mone *! nsum (N - 1) (fun n => elt psi (flip [n; S n] s)) +!
    mone *! nsum N (fun n => sign (nth n s 0) *! elt psi s).
  (** X Z X - (X X 1 + 1 X X) / 2 between two states of three spins *)
  Definition opX : @op R := fun i j => if i =? j then r0 else r1.
  Definition opZ : @op R := fun i j => if i =? j then sign i else r0.
  Definition three (A B C : @op R) (s s' : list nat) : R := product_op (fun k => nth k [A; B; C] one_op) s s'.
  Definition ising3 (s s' : list nat) : R :=
    three opX opZ opX s s' +! mone *! (half *! (three opX opX one_op s s' +! three one_op opX opX s s')).
End Spec.
