(** * SymLinalgSpec: blocks of a symmetric matrix, and what factorisations of matrices must satisfy *)
From Coq Require Import List.
From Verif Require Import Prelude Algebra Tensor Res Charge BlockSparse BlockSpec BstSpec SymSvd SymLinalg.
Import ListNotations.
Set Implicit Arguments.
Unset Strict Implicit.

Section Blocks.
  Context {G : chg} {K : csr}.
  (** elementary legs of an axis *)
  Definition axis_legs (t : bst G K) (x : nat) : list (leg G) := gather ([], false) (elegs t) (nth x (bord t) []).
  (** the block of a matrix whose rows have charge q: its size and its entries, row major *)
  Definition b_rows (m : bst G K) (q : G) : nat := length (sector (axis_legs m 0) q).
  Definition b_cols (m : bst G K) (q : G) : nat := length (sector (axis_legs m 1) (qinv q)).
  Definition b_entries (m : bst G K) (q : G) : list K :=
    flat_map (fun r => map (fun c => entry (elegs m) (bdata m) (unperm 0 (concat (bord m)) (r ++ c))) (sector (axis_legs m 1) (qinv q))) (sector (axis_legs m 0) q).
  Definition has_block (m : bst G K) (q : G) : Prop := b_rows m q <> 0 /\ b_cols m q <> 0.
  (** entries of a matrix and of a vector *)
  Definition m_of (t : bst G K) (i j : nat) : K := elt (dense_of t) [i; j].
  Definition delta (i j : nat) : K := if i =? j then r1 else r0.
  (** U and V share a new leg with charges q, last in the order of U and outgoing there, first in that of V and
      incoming there; the other legs of U and V are those of t *)
  Definition new_bond (t U V : bst G K) (q : bc G) : Prop :=
    wf_bst U /\ wf_bst V /\ exists lft rgt : list nat, concat (bord t) = lft ++ rgt /\
      bcs U = q :: gather (Raw []) (bcs t) lft /\ bfs U = true :: gather false (bfs t) lft /\ concat (bord U) = seq 1 (length lft) ++ [0] /\
      bcs V = q :: gather (Raw []) (bcs t) rgt /\ bfs V = false :: gather false (bfs t) rgt /\ concat (bord V) = 0 :: seq 1 (length rgt).
End Blocks.

Section Contracts.
  Context {K : cjr}.
  (** size of the new bond for a block *)
  Definition qr_size (mode : qr_mode) (rows cols : nat) : nat := match mode with Complete => rows | _ => Nat.min rows cols end.
  (** what [np.linalg.qr] promises for one block; [d] the entries, row major *)
  Definition qr_ok (k : nat) (rows cols : nat) (d : list K) (o : mat K * mat K) : Prop :=
    let '(u, r) := o in
    m_rows u = rows /\ m_cols u = k /\ m_rows r = k /\ m_cols r = cols /\
    (forall i j, i < rows -> j < cols -> nsum k (fun l => m_at u i l *! m_at r l j) = nth (i * cols + j) d r0) /\
    (forall a b, a < k -> b < k -> nsum rows (fun i => cj (m_at u i a) *! m_at u i b) = delta a b).
  Definition qr_r_ok (rows cols : nat) (d : list K) (r : mat K) : Prop :=
    m_rows r = Nat.min rows cols /\ m_cols r = cols /\
    (forall i j, i < cols -> j < cols -> nsum (Nat.min rows cols) (fun l => cj (m_at r l i) *! m_at r l j) = nsum rows (fun l => cj (nth (l * cols + i) d r0) *! nth (l * cols + j) d r0)).
  (** [np.linalg.eig] of a square block; [np.linalg.eigh] also has orthonormal eigenvectors *)
  Definition eig_ok (n : nat) (d : list K) (o : list K * mat K) : Prop :=
    length (fst o) = n /\ m_rows (snd o) = n /\ m_cols (snd o) = n /\
    (forall i l, i < n -> l < n -> nsum n (fun j => nth (i * n + j) d r0 *! m_at (snd o) j l) = m_at (snd o) i l *! nth l (fst o) r0).
  Definition orthonormal (v : mat K) : Prop :=
    forall a b, a < m_cols v -> b < m_cols v -> nsum (m_rows v) (fun i => cj (m_at v i a) *! m_at v i b) = delta a b.
  (** [np.linalg.inv] and [np.linalg.pinv] *)
  Definition inv_ok (n : nat) (d : list K) (x : mat K) : Prop :=
    m_rows x = n /\ m_cols x = n /\
    (forall i j, i < n -> j < n -> nsum n (fun l => nth (i * n + l) d r0 *! m_at x l j) = delta i j) /\
    (forall i j, i < n -> j < n -> nsum n (fun l => m_at x i l *! nth (l * n + j) d r0) = delta i j).
  (** the four conditions of Penrose for a matrix A with [rows] rows and [cols] columns and X *)
  Definition penrose (rows cols : nat) (A X : nat -> nat -> K) : Prop :=
    let AX i k := nsum cols (fun l => A i l *! X l k) in
    let XA i k := nsum rows (fun l => X i l *! A l k) in
    (forall i j, i < rows -> j < cols -> nsum rows (fun k => AX i k *! A k j) = A i j) /\
    (forall i j, i < cols -> j < rows -> nsum cols (fun k => XA i k *! X k j) = X i j) /\
    (forall i j, i < rows -> j < rows -> cj (AX j i) = AX i j) /\
    (forall i j, i < cols -> j < cols -> cj (XA j i) = XA i j).
  Definition pinv_ok (rows cols : nat) (d : list K) (x : mat K) : Prop :=
    m_rows x = cols /\ m_cols x = rows /\ penrose rows cols (fun i j => nth (i * cols + j) d r0) (m_at x).
End Contracts.
