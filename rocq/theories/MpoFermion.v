(** * MpoFermion: model of FiniteFreeFermion2D (matrixproductstates/mpo.py:292-387).
    Scalars: a commutative semiring with an element [mone] for -1. dtype conversions are not modelled; the variable n2 of the
    code (lines 342, 354-355) is never read and left out. *)
From Verif Require Import Prelude Algebra Tensor Res Mpo.
Set Implicit Arguments.
Unset Strict Implicit.

Section Fermion.
  Context {R : csr}.
  Variable mone : R.
  Notation tensor := (tensor R).

  (** mpo.py:330-334; the entries are real, so c.T.conj() is the transpose *)
  Definition np_eye2 (i j : nat) : R := if i =? j then r1 else r0.
  Definition np_c (i j : nat) : R := match i, j with 0, 1 => r1 | _, _ => r0 end.
  Definition np_number (i j : nat) : R := match i, j with 1, 1 => r1 | _, _ => r0 end.
  Definition np_sigma_z (i j : nat) : R := match i, j with 0, 0 => r1 | 1, 1 => mone | _, _ => r0 end.
  Definition np_cdag (i j : nat) : R := np_c j i.

  (** a sequence of assignments [mpo_matrix[a, b, :, :] = m] *)
  Definition blocks (l : list (nat * nat * (nat -> nat -> R))) : list (list nat * R) :=
    flat_map (fun p => blk (fst (fst p)) (snd (fst p)) (snd p)) l.

  (** mpo.py:336-345 *)
  Definition ff_first (t1 t2 v : R) (N1 : nat) : tensor :=
    arr [1; 2 * N1 + 2; 2; 2] (blocks
      [(0, 0, mscale v np_number);
       (0, 1, mscale t1 np_cdag);
       (0, N1, mscale t2 np_cdag);
       (0, N1 + 1, mscale t1 np_c);
       (0, 2 * N1, mscale t2 np_c);
       (0, 2 * N1 + 1, np_eye2)]).
  (** mpo.py:350-377, the body of the loop over the sites *)
  Definition ff_bulk (t1 t2 v : R) (N1 N2 n : nat) : tensor :=
    let t1' := if (n + 1) mod N1 =? 0 then r0 else t1 in
    let t2' := if n <? N1 * (N2 - 1) then t2 else r0 in
    arr [2 * N1 + 2; 2 * N1 + 2; 2; 2] (blocks (
      [(0, 0, np_eye2); (1, 0, np_c)] ++
      map (fun n1 => (n1, n1 - 1, np_sigma_z)) (seq 2 (N1 + 1 - 2)) ++
      [(N1 + 1, 0, np_cdag)] ++
      map (fun n1 => (n1, n1 - 1, np_sigma_z)) (seq (N1 + 2) (2 * N1 + 1 - (N1 + 2))) ++
      [(2 * N1 + 1, 0, mscale v np_number);
       (2 * N1 + 1, 1, mscale t1' np_cdag);
       (2 * N1 + 1, N1, mscale t2' np_cdag);
       (2 * N1 + 1, N1 + 1, mscale t1' np_c);
       (2 * N1 + 1, 2 * N1, mscale t2' np_c);
       (2 * N1 + 1, 2 * N1 + 1, np_eye2)])).
  (** mpo.py:379-384 *)
  Definition ff_last (v : R) (N1 : nat) : tensor :=
    arr [2 * N1 + 2; 1; 2; 2] (blocks
      [(0, 0, np_eye2); (1, 0, np_c); (N1 + 1, 0, np_cdag); (2 * N1 + 1, 0, mscale v np_number)]).
  (** mpo.py:297-387 *)
  Definition finite_free_fermion_2d (t1 t2 v : R) (N1 N2 : nat) : res (list tensor) :=
    finite_mpo (ff_first t1 t2 v N1 :: map (ff_bulk t1 t2 v N1 N2) (seq 1 (N1 * N2 - 1 - 1)) ++ [ff_last v N1]).
End Fermion.
