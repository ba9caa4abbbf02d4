(** * Strides: model of the stride helpers of block_sparse/utils.py with the cases in which they raise.
    [_find_best_partition], [fuse_ndarrays] and [fuse_stride_arrays] are those of BlockSparse.v. *)
From Verif Require Import Prelude Res BlockSparse.
Set Implicit Arguments.
Unset Strict Implicit.

(** utils.py 132-136 [_get_strides]: [np.flip(np.append(1, np.cumprod(np.flip(dims[1::]))))] *)
Definition get_strides (dims : list nat) : list nat := rev (1 :: cumprod_from 1 (rev (skipn 1 dims))).
(** utils.py 80-94 [fuse_stride_arrays] on all inputs: [arrays[0]] of an empty list and [strides[n]] out of range are
    IndexErrors, and [np.arange] with step 0 raises *)
Definition fuse_strides (dims strides : list nat) : res (list nat) :=
  if (length dims =? 0) || (length strides <? length dims) || existsb (Nat.eqb 0) (firstn (length dims) strides) then Raise
  else Ok (fuse_stride_arrays dims strides).
