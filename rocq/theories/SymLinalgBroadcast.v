(** * SymLinalgBroadcast: multiplication with the diagonal of a vector *)
From Coq Require Import Permutation List Lia Arith Bool.
From Verif Require Import Prelude Algebra Tensor TensorFacts Res Charge ChargeFacts BlockSparse BlockSpec BstSpec ListFacts BlockFacts BlockMaps BlockTr BstFacts BstDot BstTensordot SymSvd SymSvdReshape LinalgFacts SymLinalg SymLinalgSpec SymLinalgDiag.
Import ListNotations.
Set Implicit Arguments.
Unset Strict Implicit.

Lemma filter_all A (f : A -> bool) l : (forall x, In x l -> f x = true) -> filter f l = l.
Proof. induction l as [|x r IH]; intros H; [reflexivity|]. cbn. rewrite (H x (or_introl eq_refl)), IH by (intros; apply H; right; assumption). reflexivity. Qed.
Lemma free_axes_last n : free_axes (S n) [n] = seq 0 n.
Proof.
  unfold free_axes. rewrite seq_S, filter_app. cbn [Nat.add filter].
  assert (mem n [n] = true) as -> by (apply mem_In; left; reflexivity). cbn [negb]. rewrite app_nil_r.
  apply filter_all. intros i Hi. apply in_seq in Hi. destruct (mem i [n]) eqn:E; [|reflexivity]. apply mem_In in E as [E|[]]. lia.
Qed.
Lemma free_axes_first n : free_axes (S n) [0] = seq 1 n.
Proof.
  unfold free_axes. cbn [seq filter]. assert (mem 0 [0] = true) as -> by (apply mem_In; left; reflexivity). cbn [negb].
  apply filter_all. intros i Hi. apply in_seq in Hi. destruct (mem i [0]) eqn:E; [|reflexivity]. apply mem_In in E as [E|[]]. lia.
Qed.

Section Broadcast.
  Context {G : chg} {K : csr}.
  Add Ring KringB : (rsr K).
  Variables lim blim junk : nat.
  Hypothesis lim_pos : 0 < lim.
  Variable t : bst G K.
  Hypothesis W : wf_bst t.
  Variables (c : bc G) (f : bool) (data : list K).
  Hypothesis Hc : bc_ok c.
  Hypothesis Hdat : length data = length (rep c).
  Let v : bst G K := BST data [c] [f] [[0]].

  Lemma axis_dim o k : nth o (bord t) [] = [k] -> charge_equal (nth k (bcs t) (Raw [])) c = true -> o < ndim t -> nth o (bshape t) 0 = length data.
  Proof.
    clear lim_pos. intros E E' Ho. unfold bshape. rewrite (@nth_map_lt _ _ _ _ _ _ []) by exact Ho. rewrite E. unfold gather. cbn [map].
    unfold edims. change 0 with (bdim (@Raw G [])) at 1. rewrite map_nth, bdim_rep, (charge_equal_sound E'), Hdat. unfold nprod. cbn. lia.
  Qed.

  Theorem broadcast_right_scales os k : bord t = os ++ [[k]] -> charge_equal (nth k (bcs t) (Raw [])) c = true -> nth k (bfs t) false = negb f ->
    exists u, broadcast_right lim blim junk t v = Ok u /\ wf_bst u /\ shape (dense_of u) = shape (dense_of t) /\
      forall I j, valid (I ++ [j]) (shape (dense_of t)) -> elt (dense_of u) (I ++ [j]) = elt (dense_of t) (I ++ [j]) *! nth j data r0.
  Proof.
    intros Eo Ek Ef. destruct (diagflat_diagonal blim junk lim_pos f Hc Hdat) as (d & Ed & Wd & D1 & D2 & D3 & D4 & D5).
    unfold broadcast_right. cbn [ndim v bord length Nat.eqb]. fold v in Ed. change (ndim v =? 1) with true. cbv iota. rewrite Ed. cbn [rbind].
    assert (ndim t = S (length os)) as Nt by (unfold ndim; rewrite Eo, app_length; cbn; lia). rewrite Nt. replace (S (length os) - 1) with (length os) by lia.
    assert (nth (length os) (bord t) [] = [k]) as En by (rewrite Eo, app_nth2, Nat.sub_diag by lia; reflexivity).
    assert (nth (length os) (bshape t) 0 = length data) as Sn by (apply (axis_dim En Ek); lia).
    assert (compatible t d [length os] [0]) as HC.
    { split; [reflexivity|]. split; [repeat constructor; auto|]. split; [repeat constructor; auto|]. split; [intros i [<-|[]]; lia|]. split; [intros i [<-|[]]; unfold ndim; rewrite D3; cbn; lia|].
      split; [cbn [gather map]; rewrite Sn, (wf_shape Wd), D4; reflexivity|]. unfold con_legs. cbn [gather map]. rewrite En, D3, D1, D2. cbn. rewrite Ef, Ek. auto. }
    destruct (@btensordot_spec G K lim blim junk lim_pos t d [length os] [0] W Wd HC) as (u & Eu & Wu & Su & Vu); [rewrite Eo; destruct os; discriminate|].
    exists u. split; [exact Eu|]. split; [exact Wu|].
    assert (length (shape (dense_of t)) = S (length os)) as Ls by (rewrite <- (wf_shape W); unfold bshape; rewrite map_length; exact Nt).
    assert (shape (dense_of t) = firstn (length os) (shape (dense_of t)) ++ [length data]) as St.
    { rewrite <- (firstn_skipn (length os) (shape (dense_of t))) at 1. f_equal. rewrite (wf_shape W) in Sn.
      apply (nth_ext _ _ 0 0); [rewrite skipn_length, Ls; cbn [length]; lia|]. intros i Hi. rewrite skipn_length, Ls in Hi. assert (i = 0) as -> by lia. rewrite nth_skipn_plus, Nat.add_0_r. exact Sn. }
    assert (shape (dense_of u) = shape (dense_of t)) as SE.
    { rewrite Su. unfold tensordot, rank. cbn [shape]. rewrite Ls, D4, free_axes_last. cbn [length]. change (free_axes 2 [0]) with [1]. cbn [gather map nth].
      rewrite St at 2. f_equal. rewrite gather_seq_cut; [reflexivity|]. lia. }
    split; [exact SE|]. intros I j HV.
    assert (length I = length os) as LI by (apply valid_length in HV; rewrite app_length, Ls in HV; cbn [length] in HV; lia).
    assert (j < length data) as Hj.
    { rewrite St in HV. apply valid_app_inv in HV as [_ HV]. rewrite firstn_length, Ls, Nat.min_l, <- LI in HV by lia. rewrite skipn_app, skipn_all, Nat.sub_diag in HV. inversion HV; assumption. }
    rewrite Vu by (rewrite SE; exact HV). unfold tensordot, rank. cbn [shape elt]. rewrite Ls, D4, free_axes_last. cbn [length]. change (free_axes 2 [0]) with [1]. rewrite seq_length.
    cbn [gather map]. rewrite <- (wf_shape W), Sn, idxs_single, lsum_map.
    assert (firstn (length os) (I ++ [j]) = I /\ skipn (length os) (I ++ [j]) = [j]) as [-> ->].
    { rewrite <- LI. rewrite firstn_app, skipn_app, Nat.sub_diag, firstn_all, skipn_all, app_nil_r. split; reflexivity. }
    rewrite (@lsum_single _ _ _ _ j); [| apply seq_NoDup | apply in_seq; lia |].
    - rewrite <- seq_S, unperm_seq by (rewrite app_length; cbn; lia). change (unperm 0 ([1] ++ [0]) ([j] ++ [j])) with [j; j].
      change (elt (dense_of d) [j; j]) with (m_of d j j). rewrite D5, Nat.eqb_refl by exact Hj. reflexivity.
    - intros x Hx Hne. apply in_seq in Hx. change (unperm 0 ([1] ++ [0]) ([j] ++ [x])) with [x; j]. change (elt (dense_of d) [x; j]) with (m_of d x j).
      rewrite D5 by lia. rewrite (proj2 (Nat.eqb_neq x j)) by exact Hne. ring.
  Qed.

  Theorem broadcast_left_scales os k : bord t = [k] :: os -> charge_equal c (nth k (bcs t) (Raw [])) = true -> nth k (bfs t) false = f ->
    exists u, broadcast_left lim blim junk v t = Ok u /\ wf_bst u /\ shape (dense_of u) = shape (dense_of t) /\
      forall i I, valid (i :: I) (shape (dense_of t)) -> elt (dense_of u) (i :: I) = nth i data r0 *! elt (dense_of t) (i :: I).
  Proof.
    intros Eo Ek Ef. destruct (diagflat_diagonal blim junk lim_pos f Hc Hdat) as (d & Ed & Wd & D1 & D2 & D3 & D4 & D5).
    unfold broadcast_left. fold v in Ed. change (ndim v =? 1) with true. cbv iota. rewrite Ed. cbn [rbind].
    assert (ndim t = S (length os)) as Nt by (unfold ndim; rewrite Eo; reflexivity).
    assert (nth 0 (bshape t) 0 = length data) as Sn.
    { unfold bshape. rewrite Eo. cbn [map nth]. unfold gather. cbn [map]. unfold edims. change 0 with (bdim (@Raw G [])) at 1.
      rewrite map_nth, bdim_rep, <- (charge_equal_sound Ek), Hdat. unfold nprod. cbn. lia. }
    assert (compatible d t [1] [0]) as HC.
    { split; [reflexivity|]. split; [repeat constructor; auto|]. split; [repeat constructor; auto|]. split; [intros i [<-|[]]; unfold ndim; rewrite D3; cbn; lia|]. split; [intros i [<-|[]]; lia|].
      split; [cbn [gather map]; rewrite Sn, (wf_shape Wd), D4; reflexivity|]. unfold con_legs. rewrite Eo, D3, D1, D2. cbn. rewrite Ef, Ek. auto. }
    destruct (@btensordot_spec G K lim blim junk lim_pos d t [1] [0] Wd W HC) as (u & Eu & Wu & Su & Vu); [rewrite Eo; destruct (bord d); discriminate|].
    exists u. split; [exact Eu|]. split; [exact Wu|].
    assert (length (shape (dense_of t)) = S (length os)) as Ls by (rewrite <- (wf_shape W); unfold bshape; rewrite map_length; exact Nt).
    destruct (shape (dense_of t)) as [|n0 ns] eqn:St; [discriminate|]. injection Ls as Ls.
    assert (n0 = length data) as -> by (rewrite (wf_shape W), St in Sn; exact Sn).
    assert (shape (dense_of u) = length data :: ns) as SE.
    { rewrite Su. unfold tensordot, rank. cbn [shape]. rewrite St, D4. cbn [length]. rewrite Ls, free_axes_first. change (free_axes 2 [1]) with [0]. cbn [gather map nth app].
      f_equal. apply (@gather_shift _ 0 (length data) ns). symmetry; exact Ls. }
    split; [exact SE|]. intros i I HV. assert (i < length data /\ length I = length os) as [Hi LI].
    { inversion HV; subst. split; [assumption|]. rewrite <- Ls. apply valid_length; assumption. }
    rewrite Vu by (rewrite SE; exact HV). unfold tensordot, rank. cbn [shape elt]. rewrite St, D4. cbn [length]. rewrite Ls, free_axes_first. change (free_axes 2 [1]) with [0].
    cbn [length firstn skipn gather map nth]. rewrite idxs_single, lsum_map.
    rewrite (@lsum_single _ _ _ _ i); [| apply seq_NoDup | apply in_seq; lia |].
    - change (unperm 0 ([0] ++ [1]) ([i] ++ [i])) with [i; i]. change (elt (dense_of d) [i; i]) with (m_of d i i). rewrite D5, Nat.eqb_refl by exact Hi. f_equal. f_equal.
      rewrite (@unperm_swap (S (length os))); [| | rewrite seq_length; exact LI | reflexivity].
      + change ([0] ++ seq 1 (length os)) with (seq 0 (S (length os))). apply unperm_seq. cbn. rewrite LI. reflexivity.
      + change (seq 0 (S (length os))) with ([0] ++ seq 1 (length os)). apply Permutation_app_comm.
    - intros x Hx Hne. apply in_seq in Hx. change (unperm 0 ([0] ++ [1]) ([i] ++ [x])) with [i; x]. change (elt (dense_of d) [i; x]) with (m_of d i x).
      rewrite D5 by lia. rewrite (proj2 (Nat.eqb_neq i x)) by (intros E; apply Hne; symmetry; exact E). ring.
  Qed.
End Broadcast.
