(** * BackendSpec: the meaning of a contraction, stated without reference to transpositions,
    reshapes or matrix products. *)
From Coq Require Import ZArith.
From Verif Require Import Prelude Algebra Tensor.
Set Implicit Arguments.
Unset Strict Implicit.

Section Spec.
  Context {R : csr}.

  (** the paired axes have equal indices *)
  Definition agree (ia ib : list nat) (pairs : list (nat * nat)) : bool :=
    forallb (fun p => nth (fst p) ia 0 =? nth (snd p) ib 0) pairs.
  Definition same (x y : list nat) : bool := if list_eq_dec Nat.eq_dec x y then true else false.

  (** contraction of the axis pairs [pairs] of [a] and [b]: the remaining axes of [a] in order,
      then those of [b]; an entry is the sum of a[ia] * b[ib] over all pairs of multi-indices that
      extend the index of the entry and agree on the paired axes *)
  Definition contraction (a b : tensor R) (pairs : list (nat * nat)) : tensor R :=
    let fa := free_axes (rank a) (map fst pairs) in
    let fb := free_axes (rank b) (map snd pairs) in
    Tensor (gather 0 (shape a) fa ++ gather 0 (shape b) fb)
      (fun ix =>
         lsum (idxs (shape a)) (fun ia =>
         lsum (idxs (shape b)) (fun ib =>
           if same (gather 0 ia fa ++ gather 0 ib fb) ix && agree ia ib pairs
           then elt a ia *! elt b ib else r0))).

  (** the pairs name distinct existing axes of equal dimensions *)
  Definition contractible (a b : tensor R) (pairs : list (nat * nat)) : Prop :=
    NoDup (map fst pairs) /\ NoDup (map snd pairs) /\
    forall i j, In (i, j) pairs -> i < rank a /\ j < rank b /\ nth i (shape a) 0 = nth j (shape b) 0.
End Spec.

(** [z] names axis [i] of an array of rank [n]; negative numbers count from the end *)
Definition names (n : nat) (z : Z) (i : nat) : Prop :=
  i < n /\ (z = Z.of_nat i \/ z = Z.of_nat i - Z.of_nat n)%Z.
