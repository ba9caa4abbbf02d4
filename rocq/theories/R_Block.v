(** * Refutations for block-sparse tensors *)
From Coq Require Import ZArith.
From Verif Require Import Prelude Algebra Tensor Res Charge ChargeFacts ChargeInst BlockSparse BlockSpec BstSpec BstConv BstMain BstExamples.
Set Implicit Arguments.
Unset Strict Implicit.

(** [todense] of a full contraction is an array of shape (1,), the dense result has shape () *)
Theorem C30_scalar_todense_refuted : exists t1 t2 : bst Z_chg Z_csr, exists axes1 axes2 d1 d2 t d,
  wf_bst t1 /\ wf_bst t2 /\ todense t1 = Ok d1 /\ todense t2 = Ok d2 /\
  btensordot 5 3 0 t1 t2 axes1 axes2 = Ok t /\ todense t = Ok d /\ shape d <> shape (tensordot d1 d2 axes1 axes2).
Proof.
  assert (wf_bst ex_t) as W1 by (apply wf_bstb_ok; vm_compute; reflexivity). assert (wf_bst ex_u) as W2 by (apply wf_bstb_ok; vm_compute; reflexivity).
  assert (bord ex_t <> []) as N1 by (vm_compute; discriminate). assert (bord ex_u <> []) as N2 by (vm_compute; discriminate).
  destruct (todense_total W1 N1) as (d1 & E1 & S1 & _). destruct (todense_total W2 N2) as (d2 & E2 & S2 & _).
  exists ex_t, ex_u, [2; 0; 1], [1; 2; 0], d1, d2, (BST (K := Z_csr) [-1346]%Z [] [] []), (of_list (R := Z_csr) [1] [-1346]%Z).
  split; [exact W1|]. split; [exact W2|]. split; [exact E1|]. split; [exact E2|]. split; [vm_compute; reflexivity|]. split; [reflexivity|].
  unfold tensordot. cbn [shape]. unfold rank. rewrite S1, S2. vm_compute. discriminate.
Qed.
Print Assumptions C30_scalar_todense_refuted.

(** the product of two such scalars raises *)
Theorem C30_scalar_product_refuted : exists t1 t2 : bst Z_chg Z_csr,
  wf_bst t1 /\ wf_bst t2 /\ btensordot 5 3 0 t1 t2 [] [] = Raise.
Proof. exists (BST (K := Z_csr) [2%Z] [] [] []), (BST (K := Z_csr) [3%Z] [] [] []). split; [apply wf_bstb_ok; reflexivity|]. split; [apply wf_bstb_ok; reflexivity|]. reflexivity. Qed.
Print Assumptions C30_scalar_product_refuted.

(** dense contraction demands equal dimensions of paired axes, the block-sparse one compares only the
    elementary legs of all contracted axes together *)
Theorem C30_shape_check_refuted : exists t1 t2 : bst Z_chg Z_csr, exists axes1 axes2 t,
  wf_bst t1 /\ wf_bst t2 /\ NoDup axes1 /\ NoDup axes2 /\ btensordot 5 3 0 t1 t2 axes1 axes2 = Ok t /\
  gather 0 (bshape t1) axes1 <> gather 0 (bshape t2) axes2.
Proof.
  exists ex_t. exists (BST (bdata ex_t) (bcs ex_t) (map negb (bfs ex_t)) [[0; 1]; [2]; [3]]), [0; 1; 2], [0; 1; 2], (BST (K := Z_csr) [1240]%Z [] [] []).
  split; [apply wf_bstb_ok; vm_compute; reflexivity|]. split; [apply wf_bstb_ok; vm_compute; reflexivity|].
  split; [repeat constructor; cbn; intuition discriminate|]. split; [repeat constructor; cbn; intuition discriminate|].
  split; [vm_compute; reflexivity|]. vm_compute. discriminate.
Qed.
Print Assumptions C30_shape_check_refuted.

(** equal charges in different representations are refused *)
Theorem C30_representation_refuted : exists t1 t2 : bst Z_chg Z_csr,
  wf_bst t1 /\ wf_bst t2 /\ elegs t2 = map flip (elegs t1) /\ bord t1 = bord t2 /\ btensordot 5 3 0 t1 t2 [0] [0] = Raise.
Proof.
  exists (BST (K := Z_csr) [1; 2; 3; 4]%Z [Lab [0; 1]%Z [0; 1; 0]; Lab [0; 1]%Z [1; 0; 1]] [false; true] [[0]; [1]]).
  exists (BST (K := Z_csr) [1; 2; 3; 4]%Z [Lab [1; 0]%Z [1; 0; 1]; Lab [1; 0]%Z [0; 1; 0]] [true; false] [[0]; [1]]).
  split; [apply wf_bstb_ok; vm_compute; reflexivity|]. split; [apply wf_bstb_ok; vm_compute; reflexivity|]. vm_compute. auto.
Qed.
Print Assumptions C30_representation_refuted.

(** so are sums *)
Theorem C46_representation_refuted : exists t u : bst Z_chg Z_csr,
  wf_bst t /\ wf_bst u /\ elegs t = elegs u /\ bord t = bord u /\ bzip (K := Z_csr) 5 3 0 Z.add t u = Raise.
Proof.
  exists (BST (K := Z_csr) [1; 2; 3; 4]%Z [Lab [0; 1]%Z [0; 1; 0]; Lab [0; 1]%Z [1; 0; 1]] [false; true] [[0]; [1]]).
  exists (BST (K := Z_csr) [1; 2; 3; 4]%Z [Lab [1; 0]%Z [1; 0; 1]; Lab [1; 0]%Z [0; 1; 0]] [false; true] [[0]; [1]]).
  split; [apply wf_bstb_ok; vm_compute; reflexivity|]. split; [apply wf_bstb_ok; vm_compute; reflexivity|]. vm_compute. auto.
Qed.
Print Assumptions C46_representation_refuted.

(** reshaping to () keeps the elementary legs but loses their order: the result has no legs, and its
    dense form is the array of stored numbers, here empty *)
Theorem C31_empty_shape_refuted : exists (t u : bst Z_chg Z_csr) d d',
  wf_bst t /\ todense t = Ok d /\ breshape t [] = Ok u /\ todense u = Ok d' /\
  nprod (shape d) = 1 /\ nprod (shape d') = 0 /\ ~ wf_bst u.
Proof.
  set (t := BST (K := Z_csr) [] [Raw (G := Z_chg) [1%Z]] [false] [[0]]).
  assert (wf_bst t) as W by (apply wf_bstb_ok; vm_compute; reflexivity). assert (bord t <> []) as N by discriminate.
  destruct (todense_total W N) as (d & E & S & _).
  exists t, (BST (K := Z_csr) [] [Raw [1%Z]] [false] []), d, (of_list (R := Z_csr) [0] []). split; [exact W|]. split; [exact E|]. split; [vm_compute; reflexivity|].
  split; [reflexivity|]. split; [rewrite S; reflexivity|]. split; [reflexivity|]. intros (_ & _ & _ & H & _). apply is_perm_length in H. discriminate.
Qed.
Print Assumptions C31_empty_shape_refuted.

