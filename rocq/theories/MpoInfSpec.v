(** * MpoInfSpec: the operator that a matrix product operator stands for on a ring *)
From Verif Require Import Prelude Algebra Tensor.
Set Implicit Arguments.
Unset Strict Implicit.

(** the list from position [k] on, followed by the entries before it *)
Definition rotate A (k : nat) (l : list A) : list A := skipn k l ++ firstn k l.

Section Spec.
  Context {R : csr}.
  (** the product of the entries of the tensors with axes (left, right, row, column) for the values [b] of the right bonds,
      when the left bond of the first tensor has the value [l] *)
  Fixpoint along (l : nat) (ts : list (tensor R)) (b s s' : list nat) : R :=
    match ts, b, s, s' with
    | t :: ts, x :: b, i :: s, j :: s' => elt t [l; x; i; j] *! along x ts b s s'
    | _, _, _, _ => r1
    end.
  (** the matrix element between [s] and [s'] on a ring: the last right bond is the first left bond *)
  Definition ring_entry (ts : list (tensor R)) (s s' : list nat) : R :=
    lsum (idxs (map (fun t => nth 1 (shape t) 0) ts)) (fun b => along (last b 0) ts b s s').
  (** neighbouring bond dimensions agree around the ring *)
  Definition closed_ring (ts : list (tensor R)) : Prop :=
    forall k t t', nth_error ts k = Some t -> nth_error ts (S k mod length ts) = Some t' -> nth 1 (shape t) 0 = nth 0 (shape t') 0.
End Spec.
