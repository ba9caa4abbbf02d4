(** * C72: the most levelled partition, strides and linear positions *)
From Coq Require Import ZArith.
From Verif Require Import Prelude Algebra Tensor TensorFacts Res BlockSparse BlockMaps Strides StridesFacts.
Set Implicit Arguments.
Unset Strict Implicit.
Open Scope nat_scope.

(** the partition is inner, no inner partition is more levelled, and of those equally levelled it has the larger right side
    and then is the first *)
Theorem C72_partition dims : 2 <= length dims ->
  let gap p := Z.abs (Z.of_nat (nprod (firstn p dims)) - Z.of_nat (nprod (skipn p dims))) in
  exists p, find_best_partition dims = Ok p /\ 1 <= p < length dims /\
    forall q, 1 <= q < length dims -> (gap p <= gap q)%Z /\
      (gap q = gap p -> nprod (skipn q dims) <= nprod (skipn p dims) /\
        (nprod (skipn q dims) = nprod (skipn p dims) -> p <= q)).
Proof. exact (@best_partition dims). Qed.
Print Assumptions C72_partition.

(** with fewer than two dimensions it raises *)
Theorem C72_partition_raises dims : length dims < 2 -> find_best_partition dims = Raise.
Proof. intros H. unfold find_best_partition. destruct (Nat.leb_spec (length dims) 1); [reflexivity|lia]. Qed.
Print Assumptions C72_partition_raises.

(** the stride of an axis is the product of the dimensions after it *)
Theorem C72_strides dims : dims <> [] -> length (get_strides dims) = length dims /\
  forall k, k < length dims -> nth k (get_strides dims) 0 = nprod (skipn (S k) dims).
Proof.
  intros H. rewrite get_strides_of by exact H. split; [apply strides_of_length|]. intros k Hk.
  unfold strides_of. rewrite (@ListFacts.nth_map_lt _ _ _ _ _ _ 0) by (rewrite seq_length; exact Hk). rewrite seq_nth by exact Hk. reflexivity.
Qed.
Print Assumptions C72_strides.

(** with these strides the elements are at 0, 1, 2, ... *)
Theorem C72_positions dims : dims <> [] -> nprod dims <> 0 -> fuse_strides dims (get_strides dims) = Ok (seq 0 (nprod dims)).
Proof. exact (@fuse_strides_seq dims). Qed.
Print Assumptions C72_positions.

(** with axes and strides in the order [p], the element of the transposed tensor is found where the tensor has it *)
Theorem C72_transposed dims p : dims <> [] -> nprod dims <> 0 -> is_perm (length dims) p ->
  exists ps, fuse_strides (gather 0 dims p) (gather 0 (get_strides dims) p) = Ok ps /\ length ps = nprod dims /\
    forall ix, valid ix dims -> nth_error ps (ravel (gather 0 dims p) (gather 0 ix p)) = Some (ravel dims ix).
Proof. exact (@fuse_strides_perm dims p). Qed.
Print Assumptions C72_transposed.

Example C72_ex_partition : find_best_partition [2; 3; 5; 7] = Ok 3 /\ find_best_partition [2; 0; 2] = Ok 2 /\ find_best_partition [3; 2; 3] = Ok 1 /\ find_best_partition [6; 1; 1; 6] = Ok 1.
Proof. repeat split; vm_compute; reflexivity. Qed.
Example C72_ex_strides : get_strides [2; 3; 4] = [12; 4; 1] /\ nprod [2; 3; 4] <> 0.
Proof. split; [reflexivity | discriminate]. Qed.
Example C72_ex_transposed : fuse_strides (gather 0 [2; 3] [1; 0]) (gather 0 (get_strides [2; 3]) [1; 0]) = Ok [0; 3; 1; 4; 2; 5] /\ is_perm 2 [1; 0] /\ valid [1; 2] [2; 3].
Proof. split; [reflexivity|]. split; [apply perm_swap|]. constructor; [lia|]. constructor; [lia|constructor]. Qed.
