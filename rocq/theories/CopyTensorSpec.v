(** * CopyTensorSpec: what copy tensors denote, and the heap without nodes that were used up *)
From Verif Require Import Prelude Algebra Tensor Einsum Graph.
Set Implicit Arguments.
Unset Strict Implicit.

(** all entries are equal *)
Definition alleq (l : list nat) : bool := match l with [] => true | x :: r => forallb (Nat.eqb x) r end.

(** the generalised Kronecker delta: equal dimensions, 1 where all indices agree and 0 elsewhere *)
Definition is_delta {R : csr} (t : tensor R) (d : nat) : Prop :=
  shape t = repeat d (rank t) /\ forall ix, valid ix (shape t) -> elt t ix = if alleq ix then r1 else r0.

(** the heap without the nodes of D (contract_copy_node leaves the lists of edges of the partners as they were) *)
Definition forget {R : csr} (D : list nid) (s : @st R) : st :=
  St (fun n => if mem n D then None else s_nodes s n) (s_edges s) (s_nn s) (s_ne s).
