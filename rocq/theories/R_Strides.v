(** * C72, refuted: strides of a tensor without axes, positions in an empty tensor *)
From Verif Require Import Prelude Res BlockSparse Strides.
Set Implicit Arguments.
Unset Strict Implicit.

(** a tensor without axes has one stride *)
Theorem C72_scalar_refuted : exists dims, length (get_strides dims) <> length dims.
Proof. exists []. discriminate. Qed.
Print Assumptions C72_scalar_refuted.

(** for a dimension 0 after the first axis the positions are not empty: it raises *)
Theorem C72_empty_refuted : exists dims, dims <> [] /\ nprod dims = 0 /\ fuse_strides dims (get_strides dims) = Raise.
Proof. exists [2; 0]. repeat split; [discriminate]. Qed.
Print Assumptions C72_empty_refuted.
