(** * C70: rolling an infinite matrix product operator *)
From Coq Require Import ZArith.
From Verif Require Import Prelude Algebra Tensor Res MpoInf MpoInfSpec MpoInfFacts.
Set Implicit Arguments.
Unset Strict Implicit.
Local Open Scope nat_scope.

(** [roll] moves the first [k] tensors to the end; it raises when there are fewer *)
Theorem C70_roll (A : Type) (l : list A) k :
  (k <= length l -> mpo_roll (Z.of_nat k) l = Ok (rotate k l)) /\ (length l < k -> mpo_roll (Z.of_nat k) l = Raise).
Proof. exact (conj (@roll_ok A l k) (@roll_too_far A l k)). Qed.
Print Assumptions C70_roll.

Theorem C70_back (A : Type) (l : list A) k : k <= length l ->
  rbind (mpo_roll (Z.of_nat k) l) (mpo_roll (Z.of_nat (length l - k))) = Ok l.
Proof. exact (@roll_back A l k). Qed.
Print Assumptions C70_back.

(** the operator on a ring stays the same, with the sites renumbered *)
Theorem C70_ring (R : csr) (ts : list (tensor R)) k s s' : k <= length ts -> length s = length ts -> length s' = length ts ->
  exists us, mpo_roll (Z.of_nat k) ts = Ok us /\ ring_entry us (rotate k s) (rotate k s') = ring_entry ts s s'.
Proof. exact (@roll_ring R ts k s s'). Qed.
Print Assumptions C70_ring.

(** if the bonds fit around the ring, they still do, and the constructor accepts the result *)
Theorem C70_accepted (R : csr) (ts : list (tensor R)) k : ts <> [] -> k <= length ts -> closed_ring ts ->
  exists us, mpo_roll (Z.of_nat k) ts = Ok us /\ closed_ring us /\ infinite_mpo us = Ok us.
Proof. exact (@roll_closed R ts k). Qed.
Print Assumptions C70_accepted.

(** a negative number is not refused and does not roll backwards: the last tensors are repeated in front of all of them *)
Theorem C70_negative (A : Type) (l : list A) m : 1 <= m <= length l ->
  mpo_roll (- Z.of_nat m) l = Ok (skipn (length l - m) l ++ l).
Proof. exact (@roll_negative A l m). Qed.
Print Assumptions C70_negative.

Definition tz70 (k : Z) (sh : list nat) : tensor Z_csr := @Tensor Z_csr sh (fun ix => (Z.of_nat (ravel sh ix) + k)%Z).
Definition ex70 := [tz70 1 [2; 3; 2; 2]; tz70 (-3) [3; 1; 2; 2]; tz70 2 [1; 2; 2; 2]].
Example C70_example :
  closed_ring ex70 /\ rbind (mpo_roll 1 ex70) (fun us => Ok (map (@shape Z_csr) us)) = Ok [[3; 1; 2; 2]; [1; 2; 2; 2]; [2; 3; 2; 2]] /\
  ring_entry ex70 [0; 1; 0] [1; 1; 0] = 1696%Z /\
  rbind (mpo_roll 1 ex70) (fun us => Ok (ring_entry us [1; 0; 0] [1; 0; 1])) = Ok 1696%Z /\
  mpo_roll 2 [5; 6; 7; 8; 9] = Ok [7; 8; 9; 5; 6] /\ mpo_roll 6 [5; 6; 7; 8; 9] = Raise /\
  mpo_roll (-2) [5; 6; 7; 8; 9] = Ok [8; 9; 5; 6; 7; 8; 9].
Proof.
  split.
  { intros k t t' H H'. destruct k as [|[|[|k]]]; [| | |destruct k; discriminate];
      vm_compute in H, H'; injection H as <-; injection H' as <-; reflexivity. }
  repeat split; vm_compute; reflexivity.
Qed.
