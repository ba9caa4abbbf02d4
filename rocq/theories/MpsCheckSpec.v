(** * MpsCheckSpec: how far a chain is from canonical form, independently of the code of MpsCheck.v *)
From Coq Require Import List.
From Verif Require Import Prelude Res Algebra Tensor Backends MpsSpec.
Import ListNotations.
Set Implicit Arguments.
Unset Strict Implicit.
Local Open Scope nat_scope.
Local Open Scope csr_scope.

Section Spec.
  Context {R : cjr}.
  Variable sub : R -> R -> R.

  Definition delta (i j : nat) : R := if i =? j then r1 else r0.
  Definition sqabs (z : R) : R := z *! cj z.

  (** squared Frobenius distance of the Gram matrix of the columns (of the rows) from the identity *)
  Definition left_distance (t : tensor R) : R :=
    nsum (nth 2 (shape t) 0) (fun i => nsum (nth 2 (shape t) 0) (fun j =>
      sqabs (sub (nsum (nth 0 (shape t) 0) (fun a => nsum (nth 1 (shape t) 0) (fun s =>
        elt t [a; s; i] *! cj (elt t [a; s; j])))) (delta i j)))).
  Definition right_distance (t : tensor R) : R :=
    nsum (nth 0 (shape t) 0) (fun i => nsum (nth 0 (shape t) 0) (fun j =>
      sqabs (sub (nsum (nth 1 (shape t) 0) (fun s => nsum (nth 2 (shape t) 0) (fun c =>
        elt t [i; s; c] *! cj (elt t [j; s; c])))) (delta i j)))).
  (** of a chain about the site [c] *)
  Definition distance_at (c i : nat) (t : tensor R) : R :=
    if i <? c then left_distance t else if c <? i then right_distance t else r0.
  Definition distance (ts : list (tensor R)) (c : nat) : R :=
    lsum (combine (seq 0 (length ts)) ts) (fun x => distance_at c (fst x) (snd x)).

  (** the chain with the connector matrix absorbed into the last tensor *)
  Definition absorbed (ts : list (tensor R)) (conn : option (tensor R)) (us : list (tensor R)) : Prop :=
    match conn with
    | None => us = ts
    | Some k => exists p t u, ts = p ++ [t] /\ us = p ++ [u] /\
        shape u = [nth 0 (shape t) 0; nth 1 (shape t) 0; nth 1 (shape k) 0] /\
        forall a s b, a < nth 0 (shape t) 0 -> s < nth 1 (shape t) 0 -> b < nth 1 (shape k) 0 ->
          elt u [a; s; b] = nsum (nth 2 (shape t) 0) (fun e => elt t [a; s; e] *! elt k [e; b])
    end.

  (** what the theorems ask of the numbers *)
  Definition sub_ok : Prop := forall x y, sub x y = r0 <-> x = y.
  (** a sum of squared absolute values vanishes only if all terms do *)
  Definition definite : Prop := forall l : list R, lsum l sqabs = r0 -> forall z, In z l -> z = r0.
  (** square roots of sums of squared absolute values *)
  Definition sqrt_ok (sqrtf : R -> R) : Prop :=
    forall l : list R, sqrtf (lsum l sqabs) *! sqrtf (lsum l sqabs) = lsum l sqabs.
End Spec.
