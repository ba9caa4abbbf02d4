(** * R_SymTrace: traces of block-sparse tensors that are not the traces of the dense ones (property C53) *)
From Coq Require Import Permutation List Lia ZArith.
From Verif Require Import Prelude Algebra Tensor TensorFacts Res Charge ChargeFacts ChargeInst BlockSparse BlockSpec BstSpec BlockFacts BstConv BstExamples SymLinalg SymLinalgSpec SymTrace SymTraceLoop SymTraceMain SymTraceDense P_SymTrace.
Import ListNotations.
Set Implicit Arguments.
Unset Strict Implicit.

(** Axes of three legs that are not stored in the same relative order: linalg.py:629-630 index the positions of the
    sorted legs by [np.argsort] of the order instead of by its inverse, so that the legs are paired wrongly, and the sum is
    not the trace. *)
Definition tr_cycle : bst Z_chg Z_csr :=
  @BST Z_chg Z_csr (map (fun n => Z.of_nat (n * n)) (seq 1 20)) (repeat (Raw [0; 1]%Z) 6) [false; false; false; true; true; true] [[0; 1; 2]; [5; 3; 4]].
Theorem C53_trace_value_refuted : exists (t u : bst Z_chg Z_csr) x y,
  wf_bst t /\ axes_match t x y /\ (forall d, In d (edims t) -> 0 < d) /\ lin_trace 10 10 0 (99%Z : Z_csr) t x y = Ok u /\
  bord u = [] /\ elt (dense_of u) [] <> elt (trace2 (dense_of t) x y) [].
Proof.
  exists tr_cycle, (@BST Z_chg Z_csr [1212]%Z [] [] []), 0, 1. split; [apply wf_bstb_ok; vm_compute; reflexivity|]. split; [split; vm_compute; reflexivity|].
  split; [intros d Hd; cbn in Hd; repeat (destruct Hd as [<-|Hd]; [lia|]); destruct Hd|].
  split; [vm_compute; reflexivity|]. split; [reflexivity|]. vm_compute. discriminate.
Qed.
Print Assumptions C53_trace_value_refuted.

(** With different charges on the three legs the wrong pairs do not match, and the trace of opposite axes raises. *)
Definition tr_clash : bst Z_chg Z_csr :=
  let c := [Raw [0; 1]%Z; Raw [0; 2]%Z; Raw [0; 4]%Z; Raw [0; 2]%Z; Raw [0; 4]%Z; Raw [0; 1]%Z] in
  @BST Z_chg Z_csr (map Z.of_nat (seq 1 8)) c [false; false; false; true; true; true] [[0; 1; 2]; [5; 3; 4]].
Theorem C53_trace_returns_refuted : exists (t : bst Z_chg Z_csr) x y,
  wf_bst t /\ x < ndim t /\ y < ndim t /\ axes_match t x y /\ (forall d, In d (edims t) -> 0 < d) /\ lin_trace 10 10 0 (99%Z : Z_csr) t x y = Raise.
Proof.
  exists tr_clash, 0, 1. split; [apply wf_bstb_ok; vm_compute; reflexivity|]. split; [cbn; lia|]. split; [cbn; lia|]. split; [split; vm_compute; reflexivity|].
  split; [intros d Hd; cbn in Hd; repeat (destruct Hd as [<-|Hd]; [lia|]); destruct Hd | vm_compute; reflexivity].
Qed.
Print Assumptions C53_trace_returns_refuted.

(** The axes that are not traced come back ungrouped: tracing a three-dimensional tensor over two axes gives a
    two-dimensional one if the third axis is a group of two legs. *)
Definition tr_group : bst Z_chg Z_csr :=
  @BST Z_chg Z_csr (map Z.of_nat (seq 1 6)) (repeat (Raw [0; 1]%Z) 4) [false; true; false; true] [[0]; [1]; [2; 3]].
Theorem C53_trace_shape_refuted : exists (t u : bst Z_chg Z_csr) x y,
  wf_bst t /\ axes_match t x y /\ lin_trace 10 10 0 (99%Z : Z_csr) t x y = Ok u /\ shape (dense_of u) <> shape (trace2 (dense_of t) x y).
Proof.
  exists tr_group, (@BST Z_chg Z_csr [6; 8]%Z [Raw [0; 1]%Z; Raw [0; 1]%Z] [false; true] [[0]; [1]]), 0, 1.
  split; [apply wf_bstb_ok; vm_compute; reflexivity|]. split; [split; vm_compute; reflexivity|]. split; [vm_compute; reflexivity | vm_compute; discriminate].
Qed.
Print Assumptions C53_trace_shape_refuted.

(** A leg of dimension 0 in a group makes the reshape to elementary legs raise, although the trace exists. *)
Definition tr_zero : bst Z_chg Z_csr :=
  @BST Z_chg Z_csr [] [Raw [0]%Z; Raw [0]%Z; Raw []; Raw [0]%Z] [false; true; false; true] [[0]; [1]; [2; 3]].
Theorem C53_trace_empty_leg_refuted : exists (t : bst Z_chg Z_csr) x y,
  wf_bst t /\ x < ndim t /\ y < ndim t /\ axes_match t x y /\ paired (axis_order t x) (axis_order t y) /\ lin_trace 10 10 0 (99%Z : Z_csr) t x y = Raise.
Proof.
  exists tr_zero, 0, 1. split; [apply wf_bstb_ok; vm_compute; reflexivity|]. split; [cbn; lia|]. split; [cbn; lia|]. split; [split; vm_compute; reflexivity|].
  split; [apply paired_fixed; apply ranked_two; cbn; lia | vm_compute; reflexivity].
Qed.
Print Assumptions C53_trace_empty_leg_refuted.
