(** * P_SymTrace: the trace of a block-sparse tensor (property C53) *)
From Coq Require Import Permutation List Lia ZArith Sorting.Sorted.
From Verif Require Import Prelude Algebra Tensor TensorFacts Res Charge ChargeFacts ChargeInst BlockSparse BlockSpec BstSpec BlockFacts BstConv BstExamples SymLinalg SymLinalgSpec SymTrace SymTraceLoop SymTraceMain SymTraceDense.
Import ListNotations.
Set Implicit Arguments.
Unset Strict Implicit.

Section P.
  Context {G : chg} {K : csr}.
  Variables lim blim junk : nat.
  Variable emp : K.

  (** [u] is the trace of [t] over the axes x and y: its axes are the elementary legs of the other axes, in order, and its
      dense tensor is the trace of the dense tensor of [t], reshaped to these legs *)
  Definition trace_of (t : bst G K) (x y : nat) (u : bst G K) : Prop :=
    wf_bst u /\ bcs u = gather (Raw []) (bcs t) (other_legs t x y) /\ bfs u = gather false (bfs t) (other_legs t x y) /\
    bord u = map (fun p => [p]) (seq 0 (length (other_legs t x y))) /\
    teq (dense_of u) (reshape (trace2 (dense_of t) x y) (gather 0 (edims t) (other_legs t x y))).

  (** What [trace] returns is the trace, if every pair of legs that it contracts is a pair of legs at the same place of
      the two axes. *)
  Theorem C53_trace (t u : bst G K) x y : 0 < lim -> wf_bst t -> lin_trace lim blim junk emp t x y = Ok u ->
    paired (axis_order t x) (axis_order t y) -> trace_of t x y u.
  Proof. intros Hl. exact (@trace_sound G K lim blim junk Hl emp t u x y). Qed.
  (** This holds for axes of at most two elementary legs, *)
  Theorem C53_trace_two_legs (t u : bst G K) x y : 0 < lim -> wf_bst t -> lin_trace lim blim junk emp t x y = Ok u ->
    length (axis_order t x) <= 2 -> length (axis_order t y) <= 2 -> trace_of t x y u.
  Proof. intros Hl W E L0 L1. apply (C53_trace Hl W E), paired_fixed; apply ranked_two; assumption. Qed.
  (** for axes whose elementary legs are stored in increasing order, *)
  Theorem C53_trace_increasing (t u : bst G K) x y : 0 < lim -> wf_bst t -> lin_trace lim blim junk emp t x y = Ok u ->
    StronglySorted lt (axis_order t x) -> StronglySorted lt (axis_order t y) -> trace_of t x y u.
  Proof. intros Hl W E S0 S1. apply (C53_trace Hl W E), paired_fixed; apply ranked_increasing; assumption. Qed.
  (** and for axes whose elementary legs are stored in the same relative order. *)
  Theorem C53_trace_same_order (t u : bst G K) x y : 0 < lim -> wf_bst t -> lin_trace lim blim junk emp t x y = Ok u ->
    same_order (axis_order t x) (axis_order t y) -> trace_of t x y u.
  Proof. intros Hl W E S. apply (C53_trace Hl W E), paired_same_order, S. Qed.
  (** Without axes [trace] takes the last two axes. *)
  Theorem C53_trace_default (t u : bst G K) k : 0 < lim -> wf_bst t -> ndim t = S (S k) -> lin_trace_last lim blim junk emp t = Ok u ->
    paired (axis_order t k) (axis_order t (S k)) -> trace_of t k (S k) u.
  Proof.
    intros Hl W Hn E P. unfold lin_trace_last in E. rewrite Hn in E.
    replace (S (S k) - 2) with k in E by lia. replace (S (S k) - 1) with (S k) in E by lia. exact (C53_trace Hl W E P).
  Qed.
  (** [trace] returns on opposite axes paired in this way, if no leg has dimension 0. *)
  Theorem C53_trace_runs (t : bst G K) x y : 0 < lim -> wf_bst t -> 2 <= ndim t -> x < ndim t -> y < ndim t -> axes_match t x y ->
    paired (axis_order t x) (axis_order t y) -> (forall d, In d (edims t) -> 0 < d) -> exists u, lin_trace lim blim junk emp t x y = Ok u.
  Proof. intros Hl. exact (@trace_total G K lim blim junk Hl emp t x y). Qed.
  (** [trace] raises on axes that are not opposite, on an axis that is traced with itself, and out of range. *)
  Theorem C53_trace_rejects (t : bst G K) x y : wf_bst t -> ~ axes_match t x y \/ x = y \/ ndim t <= x \/ ndim t <= y ->
    lin_trace lim blim junk emp t x y = Raise.
  Proof. exact (@trace_rejects G K lim blim junk emp t x y). Qed.
End P.
Print Assumptions C53_trace.
Print Assumptions C53_trace_two_legs.
Print Assumptions C53_trace_increasing.
Print Assumptions C53_trace_same_order.
Print Assumptions C53_trace_default.
Print Assumptions C53_trace_runs.
Print Assumptions C53_trace_rejects.

(** *** examples *)
Definition tr_two : bst Z_chg Z_csr :=
  @BST Z_chg Z_csr (map Z.of_nat (seq 1 20)) (repeat (Raw [0; 1]%Z) 6) [false; true; false; true; false; true] [[0; 2]; [5; 4]; [3; 1]].
Example ex_trace : wf_bst tr_two /\ axes_match tr_two 0 2 /\ paired (axis_order tr_two 0) (axis_order tr_two 2) /\
  lin_trace 10 10 0 (99%Z : Z_csr) tr_two 0 2 = Ok (@BST Z_chg Z_csr [40; 44]%Z [Raw [0; 1]%Z; Raw [0; 1]%Z] [true; false] [[0]; [1]]).
Proof.
  split; [apply wf_bstb_ok; vm_compute; reflexivity|]. split; [split; vm_compute; reflexivity|].
  split; [apply paired_fixed; apply ranked_two; cbn; lia | vm_compute; reflexivity].
Qed.
Definition tr_last : bst Z_chg Z_csr :=
  @BST Z_chg Z_csr (map Z.of_nat (seq 1 20)) (repeat (Raw [0; 1]%Z) 6) [false; true; false; true; false; true] [[5; 4]; [0; 2]; [3; 1]].
Example ex_trace_default : wf_bst tr_last /\ ndim tr_last = 3 /\ paired (axis_order tr_last 1) (axis_order tr_last 2) /\
  exists u, lin_trace_last 10 10 0 (99%Z : Z_csr) tr_last = Ok u.
Proof.
  split; [apply wf_bstb_ok; vm_compute; reflexivity|]. split; [reflexivity|].
  split; [apply paired_fixed; apply ranked_two; cbn; lia | eexists; vm_compute; reflexivity].
Qed.
(** three legs in increasing order *)
Definition tr_inc : bst Z_chg Z_csr :=
  @BST Z_chg Z_csr (map Z.of_nat (seq 1 20)) (repeat (Raw [0; 1]%Z) 6) [false; false; false; true; true; true] [[0; 1; 2]; [3; 4; 5]].
Example ex_trace_increasing : wf_bst tr_inc /\ StronglySorted lt (axis_order tr_inc 0) /\ StronglySorted lt (axis_order tr_inc 1) /\
  exists u, lin_trace 10 10 0 (99%Z : Z_csr) tr_inc 0 1 = Ok u.
Proof.
  split; [apply wf_bstb_ok; vm_compute; reflexivity|]. split; [repeat constructor|]. split; [repeat constructor | eexists; vm_compute; reflexivity].
Qed.
(** three legs, both axes permuted in the same way *)
Definition tr_same : bst Z_chg Z_csr :=
  @BST Z_chg Z_csr (map Z.of_nat (seq 1 20)) (repeat (Raw [0; 1]%Z) 6) [false; false; false; true; true; true] [[2; 0; 1]; [5; 3; 4]].
Example ex_trace_same_order : wf_bst tr_same /\ same_order (axis_order tr_same 0) (axis_order tr_same 1) /\
  exists u, lin_trace 10 10 0 (99%Z : Z_csr) tr_same 0 1 = Ok u.
Proof.
  split; [apply wf_bstb_ok; vm_compute; reflexivity|]. split; [|eexists; vm_compute; reflexivity].
  split; [reflexivity|]. intros i j Hi Hj. destruct i as [|[|[|i]]], j as [|[|[|j]]]; cbn in *; lia.
Qed.
(** axes with equal flows *)
Example ex_trace_rejects : ~ axes_match tr_two 0 1 /\ lin_trace 10 10 0 (99%Z : Z_csr) tr_two 0 1 = Raise.
Proof. split; [intros [H _]; vm_compute in H; discriminate | vm_compute; reflexivity]. Qed.
