(** * LinalgSpec: what reshape, transpose, pivot and kron should be *)
From Verif Require Import Prelude Algebra Tensor.
Set Implicit Arguments.
Unset Strict Implicit.

Section Spec.
  Context {R : csr}.
  Notation tensor := (tensor R).
  (** same entries when read in row-major order *)
  Definition is_reshape (t : tensor) (s : list nat) (u : tensor) : Prop := shape u = s /\ to_list u = to_list t.
  (** axis k of the result is axis p_k of the argument *)
  Definition is_transpose (t : tensor) (p : list nat) (u : tensor) : Prop :=
    shape u = map (fun i => nth i (shape t) 0) p /\
    forall ix, valid ix (shape t) -> elt u (map (fun i => nth i ix 0) p) = elt t ix.
  (** the first [k] axes number the rows, the others the columns, both row-major *)
  Definition is_matrix_of (t : tensor) (k : nat) (u : tensor) : Prop :=
    shape u = [nprod (firstn k (shape t)); nprod (skipn k (shape t))] /\
    forall ix jx, valid ix (firstn k (shape t)) -> valid jx (skipn k (shape t)) ->
      elt u [ravel (firstn k (shape t)) ix; ravel (skipn k (shape t)) jx] = elt t (ix ++ jx).
  (** the Kronecker product of two matrices *)
  Definition is_kron (a b c : tensor) : Prop :=
    exists m n p q, shape a = [m; n] /\ shape b = [p; q] /\ shape c = [m * p; n * q] /\
      forall i j k l, i < m -> j < n -> k < p -> l < q -> elt c [i * p + k; j * q + l] = rmul (elt a [i; j]) (elt b [k; l]).
End Spec.
