(** * Tensor: dense arrays and the array primitives the backends delegate to.

    A tensor is a shape and an entry function; two tensors are the same ([teq]) when their
    shapes agree and the entries agree at every valid index.  The operations below are the
    documented meaning of the numpy calls made by tensornetwork/backends/numpy/numpy_backend.py
    (np.reshape 56-58, np.transpose 60-67, np.tensordot 36-54, np.trace 741-772,
    np.tensordot(axes=0) for outer_product 116-117). *)
From Verif Require Import Prelude Algebra.
Set Implicit Arguments.

Section Tensors.
  Variable R : csr.

  Record tensor := Tensor { shape : list nat; elt : list nat -> R }.

  Definition rank (t : tensor) : nat := length (shape t).

  (** [valid ix s]: ix is a multi-index of an array of shape s *)
  Definition valid (ix s : list nat) : Prop := Forall2 lt ix s.

  (** all multi-indices, in row-major (C) order *)
  Fixpoint idxs (s : list nat) : list (list nat) :=
    match s with
    | [] => [[]]
    | d :: r => flat_map (fun i => map (cons i) (idxs r)) (seq 0 d)
    end.

  (** row-major linear position and its inverse *)
  Fixpoint ravel (s ix : list nat) : nat :=
    match s, ix with
    | _ :: r, i :: ir => i * nprod r + ravel r ir
    | _, _ => 0
    end.
  Fixpoint unravel (s : list nat) (k : nat) : list nat :=
    match s with
    | [] => []
    | _ :: r => (k / nprod r) :: unravel r (k mod nprod r)
    end.

  Definition teq (t u : tensor) : Prop :=
    shape t = shape u /\ forall ix, valid ix (shape t) -> elt t ix = elt u ix.

  (** np.reshape (C order); meaningful when the sizes agree *)
  Definition reshape (t : tensor) (s : list nat) : tensor :=
    Tensor s (fun ix => elt t (unravel (shape t) (ravel s ix))).

  (** np.transpose(t, p): out.shape[k] = t.shape[p[k]] and out[ix] = t[jx] with jx[p[k]] = ix[k] *)
  Definition transpose (t : tensor) (p : list nat) : tensor :=
    Tensor (gather 0 (shape t) p) (fun ix => elt t (unperm 0 p ix)).

  (** np.tensordot(a, b, (ax, bx)): free axes of a in order, then free axes of b in order *)
  Definition tensordot (a b : tensor) (ax bx : list nat) : tensor :=
    let fa := free_axes (rank a) ax in
    let fb := free_axes (rank b) bx in
    Tensor (gather 0 (shape a) fa ++ gather 0 (shape b) fb)
      (fun ix =>
         let ia := firstn (length fa) ix in
         let ib := skipn (length fa) ix in
         lsum (idxs (gather 0 (shape a) ax))
              (fun vs => elt a (unperm 0 (fa ++ ax) (ia ++ vs)) *! elt b (unperm 0 (fb ++ bx) (ib ++ vs)))).

  (** np.tensordot(a, b, axes=0) *)
  Definition outer (a b : tensor) : tensor :=
    Tensor (shape a ++ shape b)
      (fun ix => elt a (firstn (rank a) ix) *! elt b (skipn (rank a) ix)).

  (** np.trace(t, axis1=i, axis2=j) *)
  Definition trace2 (t : tensor) (i j : nat) : tensor :=
    let f := free_axes (rank t) [i; j] in
    Tensor (gather 0 (shape t) f)
      (fun ix => nsum (nth i (shape t) 0) (fun v => elt t (unperm 0 (f ++ [i; j]) (ix ++ [v; v])))).

  (** arrays given by their row-major data, and back *)
  Definition of_list (s : list nat) (data : list R) : tensor :=
    Tensor s (fun ix => nth (ravel s ix) data r0).
  Definition to_list (t : tensor) : list R := map (elt t) (idxs (shape t)).
End Tensors.
Arguments Tensor {R}.
Arguments shape {R}.
Arguments elt {R}.
Arguments rank {R}.
Arguments teq {R}.
Arguments reshape {R}.
Arguments transpose {R}.
Arguments tensordot {R}.
Arguments outer {R}.
Arguments trace2 {R}.
Arguments of_list {R}.
Arguments to_list {R}.
