(** * Symmetric singular value decomposition: false claims *)
From Coq Require Import Reals List Lia Lra Sorting.Sorted ZArith.
From Verif Require Import Prelude Algebra Tensor Res Charge ChargeInst BlockSparse BlockSpec BstSpec BstExamples SymSvd SymSvdTensor P_SymSvd.
Import ListNotations.
Set Implicit Arguments.
Unset Strict Implicit.

Lemma sort_ext A (f g : A -> A -> bool) l : (forall x y, f x y = g x y) -> sort f l = sort g l.
Proof.
  intros H. induction l as [|x l IH]; cbn [sort]; [reflexivity|]. rewrite IH. generalize (sort g l). intros r.
  induction r as [|y r IHr]; cbn [insert]; [reflexivity|]. rewrite H, IHr. reflexivity.
Qed.
Lemma Rleb_IZR a b : Rleb (IZR a) (IZR b) = (a <=? b)%Z.
Proof.
  unfold Rleb. destruct (Rle_dec _ _) as [H|H]; destruct (Z.leb_spec a b) as [H'|H']; try reflexivity; exfalso.
  - apply le_IZR in H. lia.
  - apply H, IZR_le, H'.
Qed.
(** sorting integers *)
Lemma argsort_IZR (svs : list (list R)) (zs : list Z) : extended_flat svs = map IZR zs ->
  argsort svs = sort (fun i j => (nth i zs 0 <=? nth j zs 0)%Z) (seq 0 (length zs)).
Proof.
  intros E. unfold argsort. rewrite E, map_length. apply sort_ext. intros i j.
  rewrite !(map_nth IZR zs 0%Z). apply Rleb_IZR.
Qed.

(** [np.argsort(.., kind='stable')] also sorts the zeros that pad short blocks; when some of the kept values
    are zero, padding is kept too: here the block with one singular value gets two. *)
Theorem C33_padding_refuted : exists svs D new disc,
  Forall (StronglySorted Rge) svs /\ Forall (Forall (Rle (IZR 0))) svs /\ Forall (fun s => s <> []) svs /\
  0 < D < length (concat svs) /\ sym_truncate svs (Some D) None false = Ok (new, disc) /\
  exists n, length (nth n svs []) < length (nth n new []).
Proof.
  exists [[IZR 1]; [IZR 1; IZR 0; IZR 0; IZR 0]], 4, [[IZR 1; IZR 0]; [IZR 1; IZR 0]], [[IZR 0]; [IZR 0; IZR 0]].
  split; [repeat (constructor; try lra)|]. split; [repeat (constructor; try lra)|].
  split; [repeat (constructor; try congruence)|]. split; [cbn; lia|]. split.
  - unfold sym_truncate. cbn [orig_num_singvals orig_block_size map length list_sum fold_right Nat.add Nat.leb].
    unfold err_step. rewrite (@argsort_IZR _ [1; 1; 0; 0; 0; 0; 0; 0]%Z) by reflexivity.
    set (l := sort _ _). vm_compute in l. subst l. reflexivity.
  - exists 0. cbn. lia.
Qed.
Print Assumptions C33_padding_refuted.

(** [inds[(-1) * 0::]] is everything: max_singular_values = 0 keeps all values, and the padding *)
Theorem C33_zero_refuted : exists svs new disc,
  Forall (StronglySorted Rge) svs /\ Forall (Forall (Rle (IZR 0))) svs /\ Forall (fun s => s <> []) svs /\
  sym_truncate svs (Some 0) None false = Ok (new, disc) /\ length (concat svs) < length (concat new).
Proof.
  exists [[IZR 1]; [IZR 3; IZR 2]], [[IZR 1; IZR 0]; [IZR 3; IZR 2]], [[]; []].
  split; [repeat (constructor; try lra)|]. split; [repeat (constructor; try lra)|].
  split; [repeat (constructor; try congruence)|]. split; [|cbn; lia].
  unfold sym_truncate. cbn [orig_num_singvals orig_block_size map length list_sum fold_right Nat.add Nat.leb].
  unfold err_step. rewrite (@argsort_IZR _ [1; 3; 0; 2]%Z) by reflexivity.
  set (l := sort _ _). vm_compute in l. subst l. reflexivity.
Qed.
Print Assumptions C33_zero_refuted.

(** A tensor whose last leg on the left has dimension one cannot be decomposed: the reshape to a matrix puts
    that leg into the columns, and U cannot be reshaped back. *)
Definition one_t : bst Z_chg R_csr :=
  BST (K := R_csr) [IZR 1; IZR 2] [@Raw Z_chg [0; 1]%Z; @Raw Z_chg [0]%Z; @Raw Z_chg [0; 1]%Z] [false; false; true] [[0]; [1]; [2]].
Theorem C33_dimension_one_refuted : exists (t : bst Z_chg R_csr) pivot,
  wf_bst t /\ 0 < pivot < length (bshape t) /\ (forall d, In d (bshape t) -> 0 < d) /\
  sym_svd (K := R_csr) 10 10 0 diag_svd t pivot None None false = Raise.
Proof.
  exists one_t, 2. split; [apply wf_bstb_ok; vm_compute; reflexivity|]. split; [cbn; lia|]. split; [intros d Hd; cbn in Hd; lia|].
  vm_compute. reflexivity.
Qed.
Print Assumptions C33_dimension_one_refuted.
