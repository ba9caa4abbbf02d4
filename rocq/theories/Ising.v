(** * Ising: the Hamiltonians of the examples wavefunctions/evolution_example.py and simple_mera/simple_mera.py.
    Scalars: a commutative semiring with elements [half] for 1/2 and [mone] for -1; dtypes are not modelled. *)
From Verif Require Import Prelude Algebra Tensor.
Set Implicit Arguments.
Unset Strict Implicit.

Section Ising.
  Context {R : csr}.
  Variables half mone : R.
  Notation tensor := (tensor R).

  Definition tneg (a : tensor) : tensor := Tensor (shape a) (fun ix => mone *! elt a ix).
  (** differences and sums of arrays of equal shape *)
  Definition tsub (a b : tensor) : tensor := Tensor (shape a) (fun ix => elt a ix +! mone *! elt b ix).
  Definition tplus (a b : tensor) : tensor := Tensor (shape a) (fun ix => elt a ix +! elt b ix).
  Definition tscale (c : R) (a : tensor) : tensor := Tensor (shape a) (fun ix => c *! elt a ix).

  Definition arr_X : tensor := of_list [2; 2] [r0; r1; r1; r0].
  Definition arr_Z : tensor := of_list [2; 2] [r1; r0; r0; mone].
  Definition arr_I : tensor := of_list [2; 2] [r1; r0; r0; r1].

  (** evolution_example.py 21-30 [ising_hamiltonian]; tensordot with axes=0 is the outer product *)
  Definition ising_h : tensor := tsub (tneg (outer arr_X arr_X)) (outer arr_Z arr_I).
  Definition ising_h_last : tensor := tsub ising_h (outer arr_I arr_Z).
  Definition ising_hamiltonian (N : nat) : list tensor :=
    repeat (transpose ising_h [0; 2; 1; 3]) (N - 2) ++ [transpose ising_h_last [0; 2; 1; 3]].

  (** numpy.kron of two matrices *)
  Definition np_kron (a b : tensor) : tensor :=
    let d t k := nth k (shape t) 0 in
    Tensor [d a 0 * d b 0; d a 1 * d b 1] (fun ix => match ix with
      | [r; c] => elt a [r / d b 0; c / d b 1] *! elt b [r mod d b 0; c mod d b 1]
      | _ => r0
      end).
  (** simple_mera.py 298-309 [ham_ising] *)
  Definition ham_ising : tensor :=
    let hmat := np_kron arr_X (np_kron arr_Z arr_X) in
    let hmat := tsub hmat (tscale half (tplus (np_kron (np_kron arr_X arr_X) arr_I) (np_kron arr_I (np_kron arr_X arr_X)))) in
    reshape hmat (repeat 2 6).
End Ising.
