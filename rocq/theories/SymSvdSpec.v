(** * SymSvdSpec: what a symmetric singular value decomposition is *)
From Coq Require Import Permutation Reals List Sorting.Sorted.
From Verif Require Import Prelude Algebra Tensor Res Charge BlockSparse BlockSpec BstSpec SvdTrunc.
Import ListNotations.
Set Implicit Arguments.
Unset Strict Implicit.

(** arguments for which the truncation does what it is documented to do (see R_SymSvd.v for the others):
    a positive number of singular values, a nonnegative error, and, when there is no error bound, a number
    of singular values that either lies within the positive ones or covers all of them *)
Definition trunc_args (sf : list R) (maxsv : option nat) (err : option R) (relative : bool) : Prop :=
  (err <> None -> relative = true -> sf <> []) /\
  (forall D, maxsv = Some D -> 0 < D) /\
  (forall e, err = Some e -> Rle (IZR 0) e) /\
  (err = None -> forall D, maxsv = Some D ->
     D <= length (filter (fun x => if Rlt_dec (IZR 0) x then true else false) sf) \/ length sf <= D).

Section Spec.
  Context {G : chg} {K : csr}.
  Variable inj : R -> K.
  (** U diag(s) V = t as a matrix with rows [left] and columns [right] *)
  Definition factors (t : tensor K) (left right : list nat) (U : tensor K) (s : list R) (V : tensor K) : Prop :=
    shape U = left ++ [length s] /\ shape V = length s :: right /\
    forall ix jx, valid ix left -> valid jx right ->
      nsum (length s) (fun b => (elt U (ix ++ [b]) *! inj (nth b s (IZR 0))) *! elt V (b :: jx)) = elt t (ix ++ jx).
  (** the decomposition (U, s, q, V) consists of some of the triples of (Uf, sf, qf, Vf) *)
  Definition selects (left right : list nat) (Uf : tensor K) (sf : list R) (qf : list G) (Vf : tensor K)
    (U : tensor K) (s : list R) (q : list G) (V : tensor K) : Prop :=
    shape U = left ++ [length s] /\ shape V = length s :: right /\
    exists sel, NoDup sel /\ (forall b, In b sel -> b < length sf) /\
      s = gather (IZR 0) sf sel /\ q = gather qid qf sel /\
      (forall ix b, valid ix left -> b < length s -> elt U (ix ++ [b]) = elt Uf (ix ++ [nth b sel 0])) /\
      (forall b jx, b < length s -> valid jx right -> elt V (b :: jx) = elt Vf (nth b sel 0 :: jx)).
  (** the singular values s are the ones the dense truncation keeps from the sorted list of all of them, sd the others *)
  Definition keeps_largest (sf : list R) (maxsv : option nat) (err : option R) (relative : bool) (s sd : list R) : Prop :=
    forall l, Permutation l sf -> StronglySorted Rge l ->
      exists kept rest, truncate l maxsv err relative = Ok (kept, rest) /\ Permutation s kept /\ Permutation sd rest.
  (** one elementary leg, first in [bcs], last in the order of U and first in that of V, carries the charges q
      of the singular values; outgoing in U, incoming in V *)
  Definition bond_legs (t U V : bst G K) (s : list R) (q : bc G) : Prop :=
    wf_bst U /\ wf_bst V /\ length (rep q) = length s /\
    exists cl cr lft rgt : list nat,
      concat (bord t) = lft ++ rgt /\
      bcs U = q :: gather (Raw []) (bcs t) lft /\ bfs U = true :: gather false (bfs t) lft /\ concat (bord U) = cl ++ [0] /\ cl = seq 1 (length lft) /\
      bcs V = q :: gather (Raw []) (bcs t) rgt /\ bfs V = false :: gather false (bfs t) rgt /\ concat (bord V) = 0 :: cr /\ cr = seq 1 (length rgt).
End Spec.
