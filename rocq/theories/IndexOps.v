(** * IndexOps: indices of block-sparse tensors, tensornetwork/block_sparse/index.py, and products of symmetries,
    charge.py [__matmul__].

    An index is the pair of its elementary charges and flows (BlockSparse.v [index]).  Objects are values: [copy] is
    the identity. *)
From Coq Require Import ZArith.
From Verif Require Import Prelude Res Charge ChargeInst BlockSparse.
Set Implicit Arguments.
Unset Strict Implicit.

Section Index.
  Context {G : chg}.
  Notation index := (@index G).

  (** index.py:132-148 [fuse_index_pair], 112-119 [__mul__] *)
  Definition fuse_index_pair (i j : index) : index := (fst i ++ fst j, snd i ++ snd j).
  (** index.py:151-164 [fuse_indices]; [indices[0]] of an empty list raises *)
  Definition fuse_indices (l : list index) : res index :=
    match l with
    | [] => Raise
    | i :: r => Ok (fold_left fuse_index_pair r i)
    end.
  (** index.py:101-109 [flip_flow] *)
  Definition flip_flow (i : index) : index := (fst i, map negb (snd i)).
  (** index.py:121-127 [charges] *)
  Definition index_charges (i : index) : res (bc G) := fuse_charges (fst i) (snd i).
End Index.

(** ** charge types

    Charges as arrays of rows with their [charge_types], held unlabelled ([_charges] is set). *)
Record tch := TCh { ctypes : list sym; crows : list (list Z) }.

(** charge.py:208-221 [__add__]: the types are those of the left operand.  The constructors of the charge classes, which
    check the values, are left out: accepted values of the same types fuse to accepted values (C24). *)
Definition tadd (c d : tch) : tch :=
  TCh (ctypes c) (flat_map (fun x => map (fuse_row (ctypes c) x) (crows d)) (crows c)).
(** charge.py:223-257 [dual] *)
Definition tdual (c : tch) (take_dual : bool) : tch :=
  if take_dual then TCh (ctypes c) (map (dual_row (ctypes c)) (crows c)) else c.
(** charge.py:259-267 [__matmul__] *)
Definition tmatmul (c d : tch) : res tch :=
  if length (crows c) =? length (crows d)
  then Ok (TCh (ctypes c ++ ctypes d) (map (fun xy => fst xy ++ snd xy) (combine (crows c) (crows d))))
  else Raise.

Definition zrow_dec : forall x y : list Z, {x = y} + {x <> y} := list_eq_dec Z.eq_dec.
(** charge.py:80-94 [unique_charges], [charge_labels] *)
Definition tuniq (c : tch) : list (list Z) := sort lexleb (nodup zrow_dec (crows c)).
Definition tlabels (c : tch) : list nat := map (fun x => index_of zrow_dec x (tuniq c)) (crows c).
(** index.py:48-62 [Index.__eq__]; [charge_types] do not occur *)
Definition tindex := (list tch * list bool)%type.
Definition tindex_eq (i j : tindex) : bool :=
  (length (fst i) =? length (fst j)) &&
  forallb (fun cd => leqb zrow_dec (tuniq (fst cd)) (tuniq (snd cd)) &&
                     leqb Nat.eq_dec (tlabels (fst cd)) (tlabels (snd cd))) (combine (fst i) (fst j)) &&
  leqb Bool.bool_dec (snd i) (snd j).
(** charge.py:622-641 [fuse_charges] *)
Definition tfuse (i : tindex) : res tch :=
  if length (fst i) =? length (snd i) then
    match fst i, snd i with
    | c :: cs, f :: fs => Ok (fold_left (fun acc cf => tadd acc (tdual (fst cf) (snd cf))) (combine cs fs) (tdual c f))
    | _, _ => Raise
    end
  else Raise.
