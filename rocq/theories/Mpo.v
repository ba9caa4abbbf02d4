(** * Mpo: model of the finite Hamiltonians of matrixproductstates/mpo.py.
    Scalars: a commutative semiring with an element [half] for 1/2 and [mone] for -1. dtype conversions are not modelled. *)
From Verif Require Import Prelude Algebra Tensor Res.
Set Implicit Arguments.
Unset Strict Implicit.

Section Mpo.
  Context {R : csr}.
  Variables half mone : R.
  Notation tensor := (tensor R).

  (** np.zeros(shape) followed by assignments of single entries, the last one counting *)
  Fixpoint assigned (l : list (list nat * R)) (ix : list nat) : R :=
    match l with
    | [] => r0
    | (jx, v) :: r => if existsb (fun p => if list_eq_dec Nat.eq_dec (fst p) ix then true else false) r then assigned r ix
                      else if list_eq_dec Nat.eq_dec jx ix then v else r0
    end.
  Definition arr (s : list nat) (l : list (list nat * R)) : tensor := Tensor s (assigned l).
  (** [temp[a, b, :, :] = m] for a 2x2 matrix m *)
  Definition blk (a b : nat) (m : nat -> nat -> R) : list (list nat * R) :=
    [([a; b; 0; 0], m 0 0); ([a; b; 0; 1], m 0 1); ([a; b; 1; 0], m 1 0); ([a; b; 1; 1], m 1 1)].
  Notation "- x" := (rmul mone x).

  (** FiniteXXZ.__init__ (mpo.py:153-218). Jz, Jxy, Bz are arrays: reading past the end raises *)
  Definition xxz_first (jz jxy bz : R) : tensor :=
    arr [1; 5; 2; 2]
      [([0; 0; 0; 0], (- half) *! bz); ([0; 0; 1; 1], half *! bz);
       ([0; 1; 0; 1], jxy *! half *! r1);
       ([0; 2; 1; 0], jxy *! half *! r1);
       ([0; 3; 0; 0], jz *! (- half)); ([0; 3; 1; 1], jz *! half);
       ([0; 4; 0; 0], r1); ([0; 4; 1; 1], r1)].
  Definition xxz_bulk (jz jxy bz : R) : tensor :=
    arr [5; 5; 2; 2]
      [([0; 0; 0; 0], r1); ([0; 0; 1; 1], r1);
       ([1; 0; 1; 0], r1);
       ([2; 0; 0; 1], r1);
       ([3; 0; 0; 0], - half); ([3; 0; 1; 1], half);
       ([4; 0; 0; 0], (- half) *! bz); ([4; 0; 1; 1], half *! bz);
       ([4; 1; 0; 1], jxy *! half *! r1);
       ([4; 2; 1; 0], jxy *! half *! r1);
       ([4; 3; 0; 0], jz *! (- half)); ([4; 3; 1; 1], jz *! half);
       ([4; 4; 0; 0], r1); ([4; 4; 1; 1], r1)].
  Definition xxz_last (bz : R) : tensor :=
    arr [5; 1; 2; 2]
      [([0; 0; 0; 0], r1); ([0; 0; 1; 1], r1);
       ([1; 0; 1; 0], r1);
       ([2; 0; 0; 1], r1);
       ([3; 0; 0; 0], - half); ([3; 0; 1; 1], half);
       ([4; 0; 0; 0], (- half) *! bz); ([4; 0; 1; 1], half *! bz)].
  Definition read (l : list R) (n : nat) : res R := match nth_error l n with Some x => Ok x | None => Raise end.
  (** mpo.py:BaseMPO and FiniteMPO.__init__: the outer bond dimensions must be 1 *)
  Definition finite_mpo (ts : list tensor) : res (list tensor) :=
    match ts with
    | [] => Raise                                  (* IndexError in bond_dimensions *)
    | t :: _ => if (nth 0 (shape t) 0 =? 1) && (nth 1 (shape (last ts t)) 0 =? 1) then Ok ts else Raise
    end.
  Definition finite_xxz (Jz Jxy Bz : list R) : res (list tensor) :=
    let N := length Bz in
    rbind (read Bz 0) (fun b0 => rbind (read Jxy 0) (fun x0 => rbind (read Jz 0) (fun z0 =>
    rbind (mapr (fun n => rbind (read Bz n) (fun b => rbind (read Jxy n) (fun x => rbind (read Jz n) (fun z => Ok (xxz_bulk z x b)))))
                (seq 1 (N - 2))) (fun mid =>
    rbind (read Bz (N - 1)) (fun bl =>
    finite_mpo (xxz_first z0 x0 b0 :: mid ++ [xxz_last bl])))))).

  (** FiniteTFI.__init__ (mpo.py:247-291) *)
  Definition sigma_x (i j : nat) : R := if i =? j then r0 else r1.
  Definition sigma_z (i j : nat) : R := if i =? j then (if i =? 0 then mone else r1) else r0.
  Definition mscale (c : R) (m : nat -> nat -> R) (i j : nat) : R := c *! m i j.
  Definition tfi_first (jx bz : R) : tensor :=
    arr [1; 3; 2; 2] (blk 0 0 (mscale bz sigma_z) ++ blk 0 1 (mscale jx sigma_x) ++ [([0; 2; 0; 0], r1); ([0; 2; 1; 1], r1)]).
  Definition tfi_bulk (jx bz : R) : tensor :=
    arr [3; 3; 2; 2] ([([0; 0; 0; 0], r1); ([0; 0; 1; 1], r1)] ++ blk 1 0 sigma_x ++ blk 2 0 (mscale bz sigma_z) ++
                      blk 2 1 (mscale jx sigma_x) ++ [([2; 2; 0; 0], r1); ([2; 2; 1; 1], r1)]).
  Definition tfi_last (bz : R) : tensor :=
    arr [3; 1; 2; 2] ([([0; 0; 0; 0], r1); ([0; 0; 1; 1], r1)] ++ blk 1 0 sigma_x ++ blk 2 0 (mscale bz sigma_z)).
  Definition finite_tfi (Jx Bz : list R) : res (list tensor) :=
    let N := length Bz in
    rbind (read Bz 0) (fun b0 => rbind (read Jx 0) (fun x0 =>
    rbind (mapr (fun n => rbind (read Bz n) (fun b => rbind (read Jx n) (fun x => Ok (tfi_bulk x b)))) (seq 1 (N - 2))) (fun mid =>
    rbind (read Bz (N - 1)) (fun bl =>
    finite_mpo (tfi_first x0 b0 :: mid ++ [tfi_last bl]))))).
End Mpo.
