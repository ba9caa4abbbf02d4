(** * Products of labelled tensors as expressions *)
From Coq Require Import ZArith String.
From Verif Require Import Prelude Algebra Tensor Ncon Linalg TensorExpr.
Set Implicit Arguments.
Unset Strict Implicit.

(** [A(l1, l2, ...)] and [e1 @ e2], with any brackets *)
Inductive expr {R : cjr} := Call (a : @Tens R) (ls : list label) | At (e1 e2 : expr).
Fixpoint build {R : cjr} (e : @expr R) : builder :=
  match e with Call a ls => t_call a ls | At e1 e2 => b_matmul (build e1) (build e2) end.
(** the labelled tensors from left to right *)
Fixpoint leaves {R : cjr} (e : @expr R) : list (@Tens R * list label) :=
  match e with Call a ls => [(a, ls)] | At e1 e2 => leaves e1 ++ leaves e2 end.
Definition arrays {R : cjr} (e : @expr R) : list (tensor R) := map (fun x => snd (fst x)) (leaves e).
Definition labels {R : cjr} (e : @expr R) : list (list label) := map snd (leaves e).
