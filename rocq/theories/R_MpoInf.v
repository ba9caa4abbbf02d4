(** * C70: what does not hold of rolling an infinite matrix product operator *)
From Coq Require Import ZArith.
From Verif Require Import Prelude Algebra Tensor Res MpoInf MpoInfSpec.
Set Implicit Arguments.
Unset Strict Implicit.
Local Open Scope nat_scope.

(** rolling by a negative number of sites lengthens the unit cell *)
Theorem C70_negative_refuted : exists (ts us : list (tensor Z_csr)) z, closed_ring ts /\ infinite_mpo ts = Ok ts /\
  mpo_roll z ts = Ok us /\ length us <> length ts.
Proof.
  exists [@Tensor Z_csr [1; 1; 2; 2] (fun _ => 1%Z)], (repeat (@Tensor Z_csr [1; 1; 2; 2] (fun _ => 1%Z)) 2), (-1)%Z.
  split; [intros [|[|k]] t t' H H'; try discriminate; injection H as <-; injection H' as <-; reflexivity|].
  split; [reflexivity|]. split; [reflexivity|discriminate].
Qed.
Print Assumptions C70_negative_refuted.

(** the constructor tests only the outer bonds: it accepts operators that it refuses after rolling *)
Theorem C70_check_refuted : exists (ts us : list (tensor Z_csr)), infinite_mpo ts = Ok ts /\ mpo_roll 1 ts = Ok us /\ infinite_mpo us = Raise.
Proof.
  exists [@Tensor Z_csr [1; 2; 2; 2] (fun _ => 1%Z); @Tensor Z_csr [3; 1; 2; 2] (fun _ => 1%Z)],
    [@Tensor Z_csr [3; 1; 2; 2] (fun _ => 1%Z); @Tensor Z_csr [1; 2; 2; 2] (fun _ => 1%Z)].
  repeat split; reflexivity.
Qed.
Print Assumptions C70_check_refuted.
