(** * MpsSpec: what a matrix product state means, independently of the code of Mps.v *)
From Coq Require Import List.
From Verif Require Import Prelude Res Algebra Tensor Backends DecompFacts.
Import ListNotations.
Set Implicit Arguments.
Unset Strict Implicit.
Local Open Scope nat_scope.
Local Open Scope csr_scope.

Section Spec.
  Context {R : cjr}.

  (** the amplitude of the configuration [sg] with left bond index [a] and right bond index [b]: the entry
      [(a, b)] of the product of the matrices [t_i[:, sg_i, :]] *)
  Fixpoint amp (ts : list (tensor R)) (a : nat) (sg : list nat) (b : nat) : R :=
    match ts, sg with
    | [], _ => if a =? b then r1 else r0
    | t :: r, s :: sr => nsum (nth 2 (shape t) 0) (fun c => elt t [a; s; c] *! amp r c sr b)
    | _ :: _, [] => r0
    end.
  (** neighbouring bond dimensions agree; [l] and [r] are the outer ones *)
  Fixpoint chain (l : nat) (ts : list (tensor R)) (r : nat) : Prop :=
    match ts with
    | [] => l = r
    | t :: q => exists d k, shape t = [l; d; k] /\ chain k q r
    end.
  (** physical dimensions *)
  Definition phys (ts : list (tensor R)) : list nat := map (fun t => nth 1 (shape t) 0) ts.

  Definition left_iso (t : tensor R) : Prop :=
    forall c c', c < nth 2 (shape t) 0 -> c' < nth 2 (shape t) 0 ->
    nsum (nth 0 (shape t) 0) (fun a => nsum (nth 1 (shape t) 0) (fun s => elt t [a; s; c] *! cj (elt t [a; s; c'])))
    = if c =? c' then r1 else r0.
  Definition right_iso (t : tensor R) : Prop :=
    forall a a', a < nth 0 (shape t) 0 -> a' < nth 0 (shape t) 0 ->
    nsum (nth 1 (shape t) 0) (fun s => nsum (nth 2 (shape t) 0) (fun c => elt t [a; s; c] *! cj (elt t [a'; s; c])))
    = if a =? a' then r1 else r0.
  (** tensors left of [c] are left isometric, tensors right of [c] are right isometric *)
  Definition canonical (ts : list (tensor R)) (c : nat) : Prop :=
    forall i t, nth_error ts i = Some t -> (i < c -> left_iso t) /\ (c < i -> right_iso t).

  (** the same chain of physical dimensions and outer bonds, and [old = k * new] amplitude by amplitude *)
  Definition scaled (l r : nat) (k : R) (old new : list (tensor R)) : Prop :=
    phys new = phys old /\
    forall a sg b, a < l -> b < r -> valid sg (phys old) -> amp old a sg b = k *! amp new a sg b.
  Definition nonzero (l r : nat) (ts : list (tensor R)) : Prop :=
    exists a sg b, a < l /\ b < r /\ valid sg (phys ts) /\ amp ts a sg b <> r0.

  (** contracts of the factorisations: what they return, if they return *)
  Definition qr_ok (qrf : tensor R -> res (tensor R * tensor R)) : Prop :=
    forall m q r, length (shape m) = 2 -> qrf m = Ok (q, r) ->
    is_qr m q r /\ orthonormal_cols q (rows m) (Nat.min (rows m) (cols m)).
  Definition svd_ok (svdf : tensor R -> res (tensor R * list R * tensor R)) : Prop :=
    forall m u s v, length (shape m) = 2 -> svdf m = Ok (u, s, v) ->
    is_svd m u s v /\ orthonormal_cols u (rows m) (length s) /\ orthonormal_rows v (length s) (cols m).
  Definition total {A B} (f : A -> res B) : Prop := forall x, exists y, f x = Ok y.
  (** the norm is definite; division is inverse to multiplication *)
  Definition norm_ok (nrm : tensor R -> R) : Prop :=
    forall t, nrm t = r0 -> forall ix, valid ix (shape t) -> elt t ix = r0.
  Definition div_ok (rdiv : R -> R -> R) : Prop := forall x z, z <> r0 -> z *! rdiv x z = x.
End Spec.
