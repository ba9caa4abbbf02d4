(** * MpsMeasureSpec: environments and expectation values, independently of the code of Mps.v *)
From Coq Require Import List.
From Verif Require Import Prelude Res Algebra Tensor MpsSpec.
Import ListNotations.
Set Implicit Arguments.
Unset Strict Implicit.
Local Open Scope nat_scope.
Local Open Scope csr_scope.

Section Spec.
  Context {R : cjr}.

  (** the tensors [ts] with their conjugates, outer left bond traced, open right bond *)
  Definition left_part (l : nat) (ts : list (tensor R)) (e e' : nat) : R :=
    nsum l (fun a => lsum (idxs (phys ts)) (fun sg => amp ts a sg e *! cj (amp ts a sg e'))).
  (** outer right bond traced, open left bond *)
  Definition right_part (r : nat) (ts : list (tensor R)) (e e' : nat) : R :=
    nsum r (fun b => lsum (idxs (phys ts)) (fun sg => amp ts e sg b *! cj (amp ts e' sg b))).

  (** a product operator: one matrix for every site *)
  Definition ident (v u : nat) : R := if v =? u then r1 else r0.
  Definition mat (o : tensor R) (v u : nat) : R := elt o [v; u].
  Definition matmat (o p : tensor R) (v u : nat) : R := nsum (nth 1 (shape o) 0) (fun w => elt o [v; w] *! elt p [w; u]).
  Fixpoint prodop (os : list (nat -> nat -> R)) (ta sg : list nat) : R :=
    match os, ta, sg with
    | o :: os, v :: ta, u :: sg => o v u *! prodop os ta sg
    | _, _, _ => r1
    end.
  (** the matrix element of a product operator between two bond indices on either side *)
  Definition double (ts : list (tensor R)) (os : list (nat -> nat -> R)) (c c' e e' : nat) : R :=
    lsum (idxs (phys ts)) (fun sg => lsum (idxs (phys ts)) (fun ta =>
      prodop os ta sg *! (amp ts c sg e *! cj (amp ts c' ta e')))).
  (** <psi| O |psi> for the states of [ts], summed over the outer bonds (of dimension one for a state vector) *)
  Definition expectation (l r : nat) (ts : list (tensor R)) (os : list (nat -> nat -> R)) : R :=
    nsum l (fun a => nsum r (fun b => double ts os a a b b)).
  (** [f i] on site [i] *)
  Definition sitewise (n : nat) (f : nat -> nat -> nat -> R) : list (nat -> nat -> R) := map f (seq 0 n).
End Spec.
