(** * R_SymLinalg: where the linear algebra of block-sparse tensors differs from the dense one (property C52) *)
From Coq Require Import Permutation List Lia ZArith.
From Verif Require Import Prelude Algebra Tensor TensorFacts Res Charge ChargeFacts ChargeInst BlockSparse BlockSpec BstSpec BlockFacts BstConv BstExamples SymSvd SymLinalg SymLinalgSpec P_SymLinalg.
Import ListNotations.
Set Implicit Arguments.
Unset Strict Implicit.

(** rows with charges 0 and 1, columns with charges 0 and 2: the dense matrix is [[1,0],[0,0]] *)
Definition inv_u : bst Z_chg Z_cjr := @BST Z_chg Z_cjr [1]%Z [Raw [0; 1]%Z; Raw [0; 2]%Z] [false; true] [[0]; [1]].
(** [inv] returns a matrix for a singular matrix, though [np.linalg.inv] inverts every block exactly: a row of charge 1
    has no partner column. *)
Theorem C52_inv_singular_refuted : exists (m X : bst Z_chg Z_cjr) np_inv,
  wf_bst m /\ ndim m = 2 /\ (forall q, has_block m q -> exists x, np_inv (b_rows m q) (b_cols m q) (b_entries m q) = Ok x /\ b_rows m q = b_cols m q /\ inv_ok (b_rows m q) (b_entries m q) x) /\
  shape (dense_of m) = [2; 2] /\ lin_inv 10 10 0 (99%Z : Z_cjr) np_inv m = Ok X /\
  ~ (exists Y : nat -> nat -> Z_cjr, forall i j, i < 2 -> j < 2 -> nsum 2 (fun l => m_of m i l *! Y l j) = delta i j).
Proof.
  exists inv_u, (@BST Z_chg Z_cjr [1]%Z [Raw [0; 1]%Z; Raw [0; 2]%Z] [true; false] [[1]; [0]]), ex_inv.
  split; [apply wf_bstb_ok; vm_compute; reflexivity|]. split; [reflexivity|]. split; [|split; [reflexivity|]; split; [vm_compute; reflexivity|]].
  - intros q Hq. pose proof Hq as [_ Hc]. apply block_charge in Hq. cbn in Hq. destruct Hq as [<-|[<-|[]]]; [|exfalso; apply Hc; vm_compute; reflexivity].
    eexists. split; [vm_compute; reflexivity|]. split; [reflexivity|]. split; [reflexivity|]. split; [reflexivity|].
    assert (forall n i, i < n -> n = 1 -> i = 0) as H1 by (intros; lia).
    split; intros i j Hi Hj; rewrite (H1 _ _ Hi eq_refl), (H1 _ _ Hj eq_refl); vm_compute; reflexivity.
  - intros (Y & H). specialize (H 1 1 ltac:(lia) ltac:(lia)). cbn in H. change (m_of inv_u 1 0) with 0%Z in H. change (m_of inv_u 1 1) with 0%Z in H. cbn in H. discriminate.
Qed.
Print Assumptions C52_inv_singular_refuted.

(** [eigh], [eig]: rows with charges 0, 1, columns with charges 1, 0; the dense matrix is [[0,2],[3,0]].  The returned
    numbers 2 and 3 are the 1 x 1 blocks, not eigenvalues of the matrix; nothing is reported. *)
Definition eig_x : bst Z_chg Z_cjr := @BST Z_chg Z_cjr [2; 3]%Z [Raw [0; 1]%Z; Raw [1; 0]%Z] [false; true] [[0]; [1]].
Theorem C52_eig_unmatched_refuted : exists (m E V : bst Z_chg Z_cjr) np_eig,
  wf_bst m /\ ndim m = 2 /\ shape (dense_of m) = [2; 2] /\
  (forall q, has_block m q -> exists o, np_eig (b_rows m q) (b_cols m q) (b_entries m q) = Ok o /\ b_rows m q = b_cols m q /\ eig_ok (b_rows m q) (b_entries m q) o) /\
  lin_eig 10 10 0 np_eig m = Ok (E, V) /\ In 2%Z (bdata E) /\
  ~ (exists v : nat -> Z_cjr, (v 0 <> 0%Z \/ v 1 <> 0%Z) /\ forall i, i < 2 -> nsum 2 (fun j => m_of m i j *! v j) = (2%Z : Z_cjr) *! v i).
Proof.
  exists eig_x, (@BST Z_chg Z_cjr [2; 3]%Z [Lab [0; 1]%Z [0; 1]] [false] [[0]]), (@BST Z_chg Z_cjr [1; 1]%Z [Lab [0; 1]%Z [0; 1]; Raw [0; 1]%Z] [true; false] [[1]; [0]]), diag_eig.
  split; [apply wf_bstb_ok; vm_compute; reflexivity|]. split; [reflexivity|]. split; [reflexivity|]. split; [|split; [vm_compute; reflexivity|]; split; [left; reflexivity|]].
  - intros q Hq. apply block_charge in Hq. cbn in Hq. assert (forall n i, i < n -> n = 1 -> i = 0) as H1 by (intros; lia).
    destruct Hq as [<-|[<-|[]]]; (eexists; split; [reflexivity|]; split; [reflexivity|]; split; [reflexivity|]; split; [reflexivity|]; split; [reflexivity|];
      intros i j Hi Hj; rewrite (H1 _ _ Hi eq_refl), (H1 _ _ Hj eq_refl); vm_compute; reflexivity).
  - intros (v & Hv & H). pose proof (H 0 ltac:(lia)) as H0. pose proof (H 1 ltac:(lia)) as H1.
    change (0 * v 0%nat + (2 * v 1%nat + 0) = 2 * v 0%nat)%Z in H0. change (3 * v 0%nat + (0 * v 1%nat + 0) = 2 * v 1%nat)%Z in H1. destruct Hv as [Hv|Hv]; apply Hv; lia.
Qed.
Print Assumptions C52_eig_unmatched_refuted.

(** [qr] in mode 'complete': Q has as many columns as rows only when every row charge has a partner column. *)
Theorem C52_qr_complete_refuted : exists (m Q R : bst Z_chg Z_cjr) np_qr,
  wf_bst m /\ ndim m = 2 /\ (forall r c d, qr_ok r r c d (np_qr Complete r c d)) /\
  lin_qr 10 10 0 np_qr m Complete = Ok (Some Q, R) /\ shape (dense_of Q) = [2; 1].
Proof.
  exists inv_u. eexists _, _, neg_qr. split; [apply wf_bstb_ok; vm_compute; reflexivity|]. split; [reflexivity|]. split; [intros; apply neg_qr_ok|]. split; [vm_compute; reflexivity|]. vm_compute. reflexivity.
Qed.
Print Assumptions C52_qr_complete_refuted.

(** [diag] of a vector on two legs: four flows and four legs in the order, but only two charges. *)
Theorem C52_diagflat_legs_refuted : exists (v t : bst Z_chg Z_csr),
  wf_bst (BST (G := Z_chg) (K := Z_csr) [1]%Z (bcs v) (bfs v) (bord v)) /\ length (bdata v) = nprod (bshape v) /\ ndim v = 1 /\
  lin_diagflat 10 10 0 v = Ok t /\ length (bcs t) = 2 /\ length (bfs t) = 4 /\ length (concat (bord t)) = 4 /\ ~ wf_bst t.
Proof.
  exists (@BST Z_chg Z_csr [1; 2; 3; 4]%Z [Raw [0; 1]%Z; Raw [0; 1]%Z] [false; false] [[0; 1]]). eexists.
  split; [apply wf_bstb_ok; vm_compute; reflexivity|]. split; [reflexivity|]. split; [reflexivity|]. split; [vm_compute; reflexivity|]. repeat (split; [reflexivity|]). intros (H & _). discriminate H.
Qed.
Print Assumptions C52_diagflat_legs_refuted.

(** [pinv] cuts small singular values block by block: the cutoff of [np.linalg.pinv] is relative to the largest singular
    value of the block.  With the blocks [1000] and [1] and rcond = 1/100 the dense pseudoinverse drops the second
    one, [pinv] inverts it.  Entries are integers; the inverse of x is represented by 1000 / x. *)
Definition cut_pinv (r c : nat) (d : list Z_cjr) : res (mat Z_cjr) :=
  let top := fold_right Z.max 0%Z (map (fun i => nth (i * c + i) d 0%Z) (seq 0 (Nat.min r c))) in
  Ok (Mat c r (fun i j => if (i =? j) && (top <? 100 * nth (i * c + i) d 0)%Z then (1000 / nth (i * c + i) d 0)%Z else 0%Z)).
Theorem C52_pinv_cutoff_refuted : exists (m X : bst Z_chg Z_cjr) (Y : mat Z_cjr),
  wf_bst m /\ shape (dense_of m) = [2; 2] /\ lin_inv 10 10 0 (99%Z : Z_cjr) cut_pinv m = Ok X /\ cut_pinv 2 2 (to_list (dense_of m)) = Ok Y /\
  m_of X 1 1 <> m_at Y 1 1.
Proof.
  exists (@BST Z_chg Z_cjr [1000; 1]%Z [Raw [0; 1]%Z; Raw [0; 1]%Z] [false; true] [[0]; [1]]). eexists _, _.
  split; [apply wf_bstb_ok; vm_compute; reflexivity|]. split; [reflexivity|]. split; [vm_compute; reflexivity|]. split; [reflexivity|]. vm_compute. discriminate.
Qed.
Print Assumptions C52_pinv_cutoff_refuted.
