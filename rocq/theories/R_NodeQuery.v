(** * C75, refuted: negative axes *)
From Coq Require Import String ZArith.
From Verif Require Import Prelude Res NodeQuery.
Set Implicit Arguments.
Unset Strict Implicit.
Open Scope nat_scope.

(** an axis that has an edge has a dimension: not for negative numbers *)
Theorem C75_negative_refuted : exists q a e, get_edge q a = Ok e /\ get_dimension q a = Raise /\ List.length (q_shape q) = List.length (q_edges q).
Proof. exists (QNode ["a"; "b"]%string [2; 3] [5; 6]), (Num (-1)), 6. repeat split. Qed.
Print Assumptions C75_negative_refuted.
