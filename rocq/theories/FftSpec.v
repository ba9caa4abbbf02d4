(** * FftSpec: the discrete Fourier transform of loose ends of a network *)
From Coq Require Import List.
From Verif Require Import Prelude Algebra Tensor Einsum EinsumFacts Graph GraphBase GraphContract GraphValue GraphDensity Stitch.
Import ListNotations.
Set Implicit Arguments.
Unset Strict Implicit.

Section Spec.
  Context {R : cjr}.

  Fixpoint rpow (x : R) (k : nat) : R := match k with 0 => r1 | S k' => rmul x (rpow x k') end.

  (** the length 2^n transform of a vector, with the root of unity [om] and the factor [h] for each of the n bits *)
  Definition dft (n : nat) (h om : R) (v : nat -> R) (Y : nat) : R :=
    rmul (rpow h n) (nsum (2 ^ n) (fun X => rmul (rpow om (X * Y)) (v X))).

  (** the vector on the loose ends [es] of the network [ns], with the ends in the order of their significance; the values of
      the other loose ends are those of [a] *)
  Definition vector (s : @st R) (ns : list nid) (a : asg nat) (es : list eid) (X : nat) : R :=
    netval s ns (binds Nat.eq_dec a es (unravel (repeat 2 (length es)) X)).

  (** distinct binary loose ends *)
  Definition qubits (s : @st R) (ns : list nid) (es : list eid) : Prop :=
    NoDup es /\ forall e, In e es -> loose s ns e /\ edim s e = 2.
End Spec.
