(** * Isometries and the linear objective, for MERA updates *)
From Coq Require Import List.
From Verif Require Import Prelude Algebra Tensor TensorFacts Krylov.
Set Implicit Arguments.
Unset Strict Implicit.

Section Spec.
  Context {K : cfd}.
  (** [x <= y]: the difference is real and not negative *)
  Definition le (x y : K) : Prop := cpos (y -! x).
  (** twice the real part *)
  Definition re2 (x : K) : K := x +! cj x.
  (** [w] is an isometry from the axes [Rt] to the axes [L] *)
  Definition isometry (L Rt : list nat) (w : tensor K) : Prop :=
    shape w = L ++ Rt /\
    forall ir ir', valid ir Rt -> valid ir' Rt ->
      lsum (idxs L) (fun il => cj (elt w (il ++ ir)) *! elt w (il ++ ir')) = if list_eq_dec Nat.eq_dec ir ir' then r1 else r0.
  (** the objective linearised in the tensor: the contraction of the environment with it *)
  Definition objective (env x : tensor K) : K := lsum (idxs (shape env)) (fun ix => elt env ix *! elt x ix).
End Spec.
