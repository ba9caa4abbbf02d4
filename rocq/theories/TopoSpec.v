(** * TopoSpec: strings of parts, and the topologies that name a network *)
From Coq Require Import List.
From Verif Require Import Prelude Algebra Tensor.
Import ListNotations.
Set Implicit Arguments.
Unset Strict Implicit.

(** the parts with commas (44) between them *)
Fixpoint commas (parts : list (list nat)) : list nat :=
  match parts with
  | [] => []
  | [p] => p
  | p :: ps => p ++ 44 :: commas ps
  end.

(** one part for each tensor; every letter has one dimension, stands at most once in a part and at most twice in all *)
Definition good_topology {R : csr} (parts : list (list nat)) (tensors : list (tensor R)) : Prop :=
  length parts = length tensors /\
  (exists dim : nat -> nat, Forall2 (fun cs t => shape t = map dim cs) parts tensors) /\
  (forall cs, In cs parts -> NoDup cs) /\
  (forall c, count_occ Nat.eq_dec (concat parts) c <= 2).
