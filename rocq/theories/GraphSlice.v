(** * GraphSlice: model of slice_edge (tensornetwork/network_components.py:1636-1682) *)
From Coq Require Import ZArith.
From Verif Require Import Prelude Algebra Tensor Einsum Graph.
Set Implicit Arguments.
Unset Strict Implicit.

(** python's [slice(start, stop)] on an axis of length d: negative bounds count from the end, bounds
    are clipped to [0, d] *)
Definition py_bound (d : nat) (i : Z) : nat :=
  if Z.ltb i 0 then Z.to_nat (i + Z.of_nat d) else Nat.min (Z.to_nat i) d.
Definition py_len (d : nat) (start len : Z) : nat := py_bound d (start + len) - py_bound d start.

Section Slice.
  Context {R : csr}.
  Notation M := (@M R).
  Notation "x <- m ;; k" := (bind m (fun x => k)) (at level 61, m at next level, right associativity).
  Notation "m ;;; k" := (bind m (fun _ => k)) (at level 61, right associativity).

  (** NumPyBackend.slice (backends/numpy/numpy_backend.py:64-72) as called by slice_edge: all axes
      other than [ax] are taken completely *)
  Definition slice_axis (t : tensor R) (ax : nat) (start len : Z) : tensor R :=
    let d := nth ax (shape t) 0 in
    Tensor (replace_nth ax (py_len d start len) (shape t))
           (fun ix => elt t (replace_nth ax (py_bound d start + nth ax ix 0) ix)).
  (** body of the loop 1669-1680; an axis outside the tensor is an IndexError *)
  Definition slice_end (start len : Z) (p : nid * nat) : M unit :=
    nd <- get_node (fst p) ;;
    guard (Nat.ltb (snd p) (rank (n_t nd))) ;;;
    set_node (fst p) (Node (slice_axis (n_t nd) (snd p) start len) (n_edges nd) (n_names nd)).
  Definition slice_edge (e : eid) (start len : Z) : M eid :=
    guard (Z.ltb 0 len) ;;;
    d <- edge_dim e ;;
    guard (negb (Z.ltb (Z.of_nat d) (start + len) || (Z.ltb (- len) start && Z.ltb start 0))) ;;;
    ed <- get_edge e ;;
    mfor (ends ed) (slice_end start len) ;;;
    ret e.
End Slice.
