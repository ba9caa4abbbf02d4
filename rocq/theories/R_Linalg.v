(** * R_Linalg: kron does not compare the backends; the numpy reshape cuts dimensions to 32 bits *)
From Verif Require Import Prelude Algebra Tensor TensorFacts Res Linalg LinalgSpec LinalgFacts.
From Coq Require Import ZArith String.
Set Implicit Arguments.
Unset Strict Implicit.

(** operands of different backends are accepted (the docstring promises a ValueError; outer raises it) *)
Theorem C44_kron_backends_refuted : exists (a b : @Tens Z_csr), fst a <> fst b /\ t_outer a b = Raise /\ kron a b <> Raise.
Proof.
  exists ("numpy"%string, Tensor (R := Z_csr) [] (fun _ => 1%Z)), ("jax"%string, Tensor (R := Z_csr) [] (fun _ => 1%Z)).
  split; [discriminate|]. split; [reflexivity|]. vm_compute. discriminate.
Qed.
Print Assumptions C44_kron_backends_refuted.

(** flattening an array of 2^32 entries raises although the sizes agree *)
Lemma large_raises m n any : Z.of_nat m = (2 ^ 32)%Z -> m = 2 * n ->
  np_reshape any (Tensor (R := Z_csr) [2; n] (fun _ => 0%Z)) [Z.of_nat m] = Raise.
Proof.
  intros E D. unfold np_reshape. cbn [map]. rewrite E. change (wrap32 (2 ^ 32)) with 0%Z.
  unfold reshape_raw. destruct n as [|n]; [lia|]. clear E D. destruct any; reflexivity.
Qed.
Theorem C44_reshape_large_refuted : exists (t : tensor Z_csr) s, nprod s = nprod (shape t) /\
  forall any, np_reshape any t (map Z.of_nat s) = Raise.
Proof.
  assert (H : exists m n, Z.of_nat m = (2 ^ 32)%Z /\ m = 2 * n).
  { exists (Z.to_nat (2 ^ 32)), (Z.to_nat (2 ^ 31)). split; [apply Z2Nat.id; lia|].
    rewrite <- (Nat2Z.id 2), <- Z2Nat.inj_mul by lia. reflexivity. }
  destruct H as (m & n & E & D). exists (Tensor (R := Z_csr) [2; n] (fun _ => 0%Z)), [m]. split.
  - unfold nprod. cbn [fold_right shape]. lia.
  - intros any. apply large_raises; assumption.
Qed.
Print Assumptions C44_reshape_large_refuted.
