(** * SymSvd: the truncation step of the symmetric [svd],
    tensornetwork/backends/symmetric/decompositions.py:63-159.

    Input: the singular values of every symmetry block as [np.linalg.svd] returned them (54-61) and the
    matrices [u_blocks], [v_blocks] as entry functions with their row and column numbers.
    Singular values are real numbers; floating point rounding is not modelled.  max_singular_values is a
    natural number. *)
From Coq Require Import Reals List ZArith.
From Verif Require Import Prelude Res SvdTrunc.
Import ListNotations.
Set Implicit Arguments.
Unset Strict Implicit.
Local Open Scope R_scope.

Definition Rleb (x y : R) : bool := if Rle_dec x y then true else false.
Definition Rltb (x y : R) : bool := if Rlt_dec x y then true else false.

(** python's [l[:k]] and [l[k:]] for an integer k of either sign *)
Definition stop {A} (l : list A) (k : Z) : nat :=
  if (k <? 0)%Z then Z.to_nat (Z.of_nat (length l) + k) else Z.to_nat k.
Definition slice_to {A} (l : list A) (k : Z) : list A := firstn (stop l k) l.
Definition slice_from {A} (l : list A) (k : Z) : list A := skipn (stop l k) l.

Section Trunc.
  Variable singvals : list (list R).

  (** 64 and 63 *)
  Definition orig_block_size := map (@length R) singvals.
  Definition orig_num_singvals := list_sum orig_block_size.
  (** 71 *)
  Definition max_D := list_max orig_block_size.
  (** 74-81: [extended_singvals[j, n]]; a matrix of max_D rows and one column for each block *)
  Definition extended (j n : nat) : R := nth j (nth n singvals [] ++ repeat 0 (max_D - length (nth n singvals []))) 0.
  Definition ncols := length singvals.
  (** 83: [np.ravel], row by row *)
  Definition extended_flat : list R :=
    flat_map (fun j => map (fun n => extended j n) (seq 0 ncols)) (seq 0 max_D).
  (** 85: [np.argsort(.., kind='stable')] *)
  Definition argsort : list nat :=
    sort (fun i j => Rleb (nth i extended_flat 0) (nth j extended_flat 0)) (seq 0 (length extended_flat)).
  (** 89-90: [np.max([s[0] for s in singvals])]; [s[0]] of an empty block raises *)
  Definition first_max : res R :=
    rbind (mapr (fun s => match s with [] => Raise | x :: _ => Ok x end) singvals) (fun l =>
    match l with [] => Raise | x :: r => Ok (fold_left Rmax r x) end).
  (** 92-97: the indices kept and discarded for an absolute error e *)
  Definition mask (inds : list nat) (e : R) : list bool :=
    map (fun x => Rltb e x) (map sqrt (rcumsum 0 (map (fun x => x * x) (map (fun i => nth i extended_flat 0) inds)))).
  Definition by_mask (b : bool) (m : list bool) (inds : list nat) : list nat :=
    map snd (filter (fun p => Bool.eqb (fst p) b) (combine m inds)).
  (** 88-90 *)
  Definition abs_err (e : R) (relative : bool) : res R :=
    if relative && (0 <? length singvals)%nat then rbind first_max (fun m => Ok (e * m)) else Ok e.
  (** 87-97: discarded and kept indices *)
  Definition err_step (err : option R) (relative : bool) (inds : list nat) : res (list nat * list nat) :=
    match err with
    | None => Ok ([], inds)
    | Some e => rbind (abs_err e relative) (fun e' => Ok (by_mask false (mask inds e') inds, by_mask true (mask inds e') inds))
    end.
  (** 98-109 *)
  Definition max_step (maxsv : option nat) (di : list nat * list nat) : list nat * list nat :=
    match maxsv with
    | None => di
    | Some m =>
        let m := if (orig_num_singvals <? m)%nat then orig_num_singvals else m in
        if (m <? length (snd di))%nat
        then (fst di ++ slice_to (snd di) (- Z.of_nat m), slice_from (snd di) (- Z.of_nat m))
        else di
    end.
  (** 115-129: the values of block n at the given indices *)
  Definition values (inds : list nat) (n : nat) : list R :=
    rev (map (fun i => extended (i / ncols) (i mod ncols)) (filter (fun i => Nat.eqb (i mod ncols) n) inds)).
  (** 130-134 *)
  Definition disc_values (d k : list nat) (n : nat) : list R :=
    slice_to (values d n) (Z.of_nat (nth n orig_block_size 0%nat) - Z.of_nat (length (values k n))).
  (** 66-136: the kept and the discarded singular values of every block *)
  Definition sym_truncate (maxsv : option nat) (err : option R) (relative : bool) : res (list (list R) * list (list R)) :=
    let maxsv := match maxsv with Some m => if (orig_num_singvals <=? m)%nat then None else Some m | None => None end in
    match err, maxsv with
    | None, None => Ok (singvals, [])
    | _, _ =>
        rbind (err_step err relative argsort) (fun di =>
        let dk := max_step maxsv di in
        Ok (map (values (snd dk)) (seq 0 ncols), map (disc_values (fst dk) (snd dk)) (seq 0 ncols)))
    end.
End Trunc.

(** 138-151: the labels of the bond: n repeated once for each singular value of block n *)
Definition bond_labels (singvals : list (list R)) : list nat :=
  concat (map (fun n => repeat n (length (nth n singvals []))) (seq 0 (length singvals))).
(** a block of U or V^H: number of rows, of columns, entries *)
Record mat (A : Type) := Mat { m_rows : nat; m_cols : nat; m_at : nat -> nat -> A }.
(** 152-155: [np.ravel(np.transpose(u[:, 0:k]))] of every block *)
Definition u_data {A} (us : list (mat A)) (singvals : list (list R)) : list A :=
  concat (map (fun un => flat_map (fun j => map (fun i => m_at (fst un) i j) (seq 0 (m_rows (fst un))))
                                  (seq 0 (Nat.min (length (snd un)) (m_cols (fst un))))) (combine us singvals)).
(** 156-159: [np.ravel(v[0:k, :])] of every block *)
Definition v_data {A} (vs : list (mat A)) (singvals : list (list R)) : list A :=
  concat (map (fun vn => flat_map (fun j => map (fun i => m_at (fst vn) j i) (seq 0 (m_cols (fst vn))))
                                  (seq 0 (Nat.min (length (snd vn)) (m_rows (fst vn))))) (combine vs singvals)).
