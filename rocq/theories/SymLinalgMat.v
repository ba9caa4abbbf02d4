(** * SymLinalgMat: the blocks of a symmetric matrix *)
From Coq Require Import Permutation List Lia Arith.
From Verif Require Import Prelude Algebra Tensor TensorFacts Res Charge ChargeFacts BlockSparse BlockSpec BstSpec ListFacts BlockFacts BlockReduce BlockMaps BlockTr BlockPart BstFacts BstConv BstDot BstTensordot SymSvd SymSvdBond SymSvdTensorFacts SymLinalg SymLinalgSpec SymLinalgGrade.
Import ListNotations.
Set Implicit Arguments.
Unset Strict Implicit.

(** ** filling an array block by block *)
Lemma NoDup_concat_part A (l : list (list A)) x : NoDup (concat l) -> In x l -> NoDup x.
Proof.
  induction l as [|y r IH]; intros H Hx; [contradiction|]. destruct Hx as [<-|Hin]; cbn [concat] in H; apply NoDup_app_iff in H as (N1 & N2 & _); [exact N1 | apply IH; assumption].
Qed.
Lemma map_fst_combine A B (l : list A) : forall (m : list B), length l = length m -> map fst (combine l m) = l.
Proof. induction l as [|x r IH]; intros [|y s] H; try discriminate; [reflexivity|]. cbn. rewrite IH by (cbn in H; lia). reflexivity. Qed.
Lemma concat_lookup A (d : A) (maps : list (list nat)) (vals : list (list A)) : forall m v,
  map (@length nat) maps = map (@length A) vals -> NoDup (concat maps) -> In (m, v) (combine maps vals) ->
  map (fun k => nth (index_of Nat.eq_dec k (concat maps)) (concat vals) d) m = v.
Proof.
  revert vals. induction maps as [|x r IH]; intros [|y s] m v Hl Hn Hin; try contradiction; try discriminate.
  cbn [map] in Hl. injection Hl as Hl1 Hl2. cbn [concat] in *. apply NoDup_app_iff in Hn as (N1 & N2 & N3).
  cbn [combine] in Hin. destruct Hin as [E|Hin].
  - injection E as <- <-. transitivity (map (fun k => nth (index_of Nat.eq_dec k x) (y ++ concat s) d) x).
    + apply map_ext_in. intros k Hk. rewrite index_of_app_l by exact Hk. reflexivity.
    + rewrite <- (map_map (fun k => index_of Nat.eq_dec k x) (fun i => nth i (y ++ concat s) d)), index_map by exact N1.
      rewrite Hl1. transitivity (map (fun i => nth i y d) (seq 0 (length y))); [|apply (gather_seq d y)].
      apply map_ext_in. intros i Hi. apply in_seq in Hi. apply app_nth1. lia.
  - rewrite <- (IH s m v Hl2 N2 Hin). apply map_ext_in. intros k Hk.
    assert (In k (concat r)) as Ik by (apply in_concat; exists m; split; [apply (in_combine_l _ _ _ _ Hin) | exact Hk]).
    rewrite index_of_app_r by (intros I; apply (N3 k I Ik)). rewrite Hl1, app_nth2_plus. reflexivity.
Qed.
Lemma fill_sound (K : csr) (z : K) n maps vals : map (@length nat) maps = map (@length K) vals -> Permutation (concat maps) (seq 0 n) ->
  exists D, fill z n maps vals = Ok D /\ length D = n /\ forall m v, In (m, v) (combine maps vals) -> gather r0 D m = v.
Proof.
  intros Hl Hp. set (D := map (fun k => nth (index_of Nat.eq_dec k (concat maps)) (concat vals) r0) (seq 0 n)).
  assert (NoDup (concat maps)) as Hn by (apply (Permutation_NoDup (Permutation_sym Hp)), seq_NoDup).
  assert (forall k, In k (concat maps) -> k < n) as Hlt by (intros k Hk; apply (Permutation_in _ Hp) in Hk; apply in_seq in Hk; lia).
  assert (forall m v, In (m, v) (combine maps vals) -> gather r0 D m = v) as HG.
  { intros m v Hin. rewrite <- (concat_lookup r0 Hl Hn Hin). unfold gather. apply map_ext_in. intros k Hk. unfold D.
    assert (k < n) by (apply Hlt, in_concat; exists m; split; [apply (in_combine_l _ _ _ _ Hin) | exact Hk]).
    rewrite (@nth_map_lt _ _ _ _ _ _ 0) by (rewrite seq_length; assumption). rewrite seq_nth by assumption. reflexivity. }
  exists D. split; [|split; [unfold D; rewrite map_length; apply seq_length | exact HG]].
  assert (forall acc l, (forall mv, In mv l -> In mv (combine maps vals)) ->
    fold_left (fun acc mv => rbind acc (fun data => if length (fst mv) =? length (snd mv) then Ok (scatter data (fst mv) (snd mv)) else Raise)) l (Ok acc) =
    Ok (fold_left (fun a ps => scatter a ps (gather r0 D ps)) (map fst l) acc)) as HF.
  { intros acc l. revert acc. induction l as [|[m v] l IH]; intros acc Hsub; [reflexivity|]. cbn [fold_left map rbind fst snd].
    assert (gather r0 D m = v) as E by (apply HG, Hsub; left; reflexivity). rewrite E.
    assert (length m = length v) as El by (rewrite <- E; symmetry; apply map_length). rewrite El, Nat.eqb_refl.
    apply IH. intros mv Hmv. apply Hsub. right. exact Hmv. }
  unfold fill. rewrite HF by auto. f_equal.
  assert (map fst (combine maps vals) = maps) as -> by (apply map_fst_combine; rewrite <- (map_length (@length nat) maps), Hl, map_length; lia).
  apply (nth_ext _ _ r0 r0).
  - rewrite fold_scatter_length, repeat_length. unfold D. rewrite map_length, seq_length. reflexivity.
  - intros k Hk. rewrite fold_scatter_length, repeat_length in Hk. rewrite (@scatter_parts _ D r0 k n).
    + destruct (in_dec Nat.eq_dec k (concat maps)) as [_|N]; [reflexivity|]. exfalso. apply N. apply (Permutation_in _ (Permutation_sym Hp)), in_seq. lia.
    + apply repeat_length.
    + intros ps p H1 H2. apply Hlt, in_concat. exists ps. auto.
    + intros ps H1. apply (NoDup_concat_part Hn H1).
Qed.

Section Mat.
  Context {G : chg} {K : csr}.
  Add Ring KringM : (rsr K).
  Variables lim blim junk : nat.
  Hypothesis lim_pos : 0 < lim.
  Variable m : bst G K.
  Variables o0 o1 : list nat.
  Hypothesis W : wf_bst m.
  Hypothesis Eo : bord m = [o0; o1].
  Notation ls := (elegs m).
  Notation order := (o0 ++ o1).
  Notation p := (length o0).
  Notation L := (axis_legs m 0).
  Notation C := (axis_legs m 1).

  Lemma row_axis : row_legs ls order p = L.
  Proof.
    unfold row_legs, axis_legs. rewrite Eo. cbn [nth]. rewrite gather_app_eq. rewrite firstn_app_exact by apply map_length. reflexivity.
  Qed.
  Lemma col_axis : col_legs ls order p = C.
  Proof.
    unfold col_legs, axis_legs. rewrite Eo. cbn [nth]. rewrite gather_app_eq. rewrite skipn_app_exact by apply map_length. reflexivity.
  Qed.
  Lemma mo_perm : is_perm (length ls) order.
  Proof. rewrite (wf_legs_length W). pose proof (wf_perm W) as H. rewrite Eo in H. cbn [concat] in H. rewrite app_nil_r in H. exact H. Qed.
  Lemma mo_concat : concat (bord m) = order.
  Proof. rewrite Eo. cbn. rewrite app_nil_r. reflexivity. Qed.
  Lemma mo_ne : o0 <> [] /\ o1 <> [].
  Proof. destruct W as (_ & _ & _ & _ & H). rewrite Eo in H. split; apply H; cbn; auto. Qed.
  Lemma mo_len : length ls = length o0 + length o1.
  Proof. rewrite <- (is_perm_length mo_perm), app_length. reflexivity. Qed.
  Lemma axis_length0 : length L = length o0.
  Proof. unfold axis_legs. rewrite Eo. apply map_length. Qed.
  Lemma axis_length1 : length C = length o1.
  Proof. unfold axis_legs. rewrite Eo. apply map_length. Qed.

  Lemma mat_blocks_spec : exists B, mat_blocks lim blim junk m = Ok B /\ blocks_ok ls order p B.
  Proof.
    unfold mat_blocks. rewrite Eo. unfold flat_order. rewrite mo_concat. pose proof mo_len as H. rewrite (wf_legs_length W) in H. destruct mo_ne as [N0 N1].
    assert (0 < length o0) by (destruct o0; [congruence | cbn; lia]).
    apply tr_blocks_spec; try assumption.
    - apply (wf_ok W).
    - apply (wf_len W).
    - intros E. rewrite E in H. cbn in H. lia.
    - lia.
    - rewrite <- (wf_legs_length W). apply mo_perm.
  Qed.
  Section WithBlocks.
    Variable B : blocks (G := G).
    Hypothesis HB : blocks_ok ls order p B.
    Notation qs := (rep (bqs B)).
    Lemma qs_block q : In q qs <-> has_block m q.
    Proof.
      clear lim_pos. destruct HB as (_ & _ & _ & _ & _ & H1 & H2). rewrite row_axis, col_axis in *. unfold has_block, b_rows, b_cols. destruct mo_ne as [N0 N1]. pose proof mo_len as HL.
      rewrite !length_zero_iff_nil. split; intros H; [|apply H1; apply H].
      apply H2; [exact H|]. assert (0 < length o0) by (destruct o0; [congruence | cbn; lia]). assert (0 < length o1) by (destruct o1; [congruence | cbn; lia]). rewrite app_length. lia.
    Qed.
    Lemma blocks_dims : bdims B = map (fun q => (b_rows m q, b_cols m q)) qs.
    Proof. destruct HB as (_ & _ & _ & _ & -> & _). apply map_ext. intros q. unfold block_shape. rewrite row_axis, col_axis. reflexivity. Qed.
  End WithBlocks.
  Lemma charge_rc r c : length r = length L -> length c = length C -> charge_of ls (unperm 0 order (r ++ c)) = qop (charge_of L r) (charge_of C c).
  Proof.
    intros Hr Hc. rewrite charge_of_unperm; [|apply mo_perm|].
    - rewrite gather_app_eq. replace (gather ([], false) ls o0) with L by (unfold axis_legs; rewrite Eo; reflexivity).
      replace (gather ([], false) ls o1) with C by (unfold axis_legs; rewrite Eo; reflexivity). apply charge_of_app, Hr.
    - rewrite app_length, Hr, Hc, axis_length0, axis_length1, mo_len. reflexivity.
  Qed.
  Lemma sector_length (l : list (leg G)) q r : In r (sector l q) -> length r = length l.
  Proof. intros H. apply In_sector in H as [V _]. rewrite (valid_length V). apply ldims_length. Qed.
  Lemma allowed_rc q r c : In r (sector L q) -> In c (sector C (qinv q)) -> In (unperm 0 order (r ++ c)) (allowed ls).
  Proof.
    intros Hr Hc. apply In_allowed_unperm; [apply mo_perm|]. rewrite gather_app_eq.
    replace (gather ([], false) ls o0) with L by (unfold axis_legs; rewrite Eo; reflexivity).
    replace (gather ([], false) ls o1) with C by (unfold axis_legs; rewrite Eo; reflexivity). apply (@allowed_pairs _ L C q); assumption.
  Qed.
  Lemma gather_block q : gather r0 (bdata m) (block ls order p q) = b_entries m q.
  Proof.
    unfold block, b_entries, gather. rewrite row_axis, col_axis, map_flat_map, mo_concat. apply flat_map_ext_in. intros r Hr. rewrite map_map. apply map_ext_in. intros c Hc.
    symmetry. apply entry_allowed. apply (allowed_rc Hr Hc).
  Qed.
  Lemma block_list_eq B : blocks_ok ls order p B -> block_list m B = map (fun q => ((b_rows m q, b_cols m q), b_entries m q)) (rep (bqs B)).
  Proof.
    intros HB. unfold block_list. rewrite (blocks_dims HB). destruct HB as (_ & _ & _ & -> & _). generalize (rep (bqs B)). induction l as [|q r IH]; [reflexivity|].
    cbn [map combine fst snd]. rewrite IH, gather_block. reflexivity.
  Qed.
  Lemma b_entries_length q : length (b_entries m q) = b_rows m q * b_cols m q.
  Proof.
    unfold b_entries, b_rows, b_cols. generalize (sector L q). induction l as [|r l IH]; [reflexivity|]. cbn [flat_map length]. rewrite app_length, map_length, IH. reflexivity.
  Qed.
  Lemma mo_groups : map (gather 0 (ldims ls)) (bord m) = [ldims L; ldims C].
  Proof.
    pose proof mo_perm as Hp. unfold axis_legs. rewrite Eo. cbn [map nth]. rewrite !ldims_gather; [reflexivity | |]; intros i Hi; apply (is_perm_In i Hp), in_or_app; auto.
  Qed.
  Lemma mo_shape : shape (dense_of m) = [nprod (ldims L); nprod (ldims C)].
  Proof. rewrite dense_shape, mo_groups. reflexivity. Qed.
  Lemma mo_elt i j : m_of m i j = entry ls (bdata m) (unperm 0 order (unravel (ldims L) i ++ unravel (ldims C) j)).
  Proof. unfold m_of. rewrite dense_elt, mo_groups, mo_concat. cbn [split_index]. rewrite app_nil_r. reflexivity. Qed.
  Lemma qinv_charge (x y : G) : qop x y = qid <-> y = qinv x.
  Proof.
    split; intros E.
    - rewrite <- (qidl y), <- (qinvl x), <- qassoc, E, qcomm. apply qidl.
    - rewrite E. apply qinvr.
  Qed.
  Definition b_at (q : G) (a b : nat) : K := nth (a * b_cols m q + b) (b_entries m q) r0.
  Lemma m_graded : graded (m_of m) (legG L) (legG (map flip C)) b_at.
  Proof.
    intros i j Hi Hj. cbn [legG gn gch gloc] in *. rewrite ldims_flip in *. rewrite mo_elt. rewrite charge_of_flip, sector_flip.
    set (r := unravel (ldims L) i). set (c := unravel (ldims C) j).
    assert (valid r (ldims L)) as Vr by apply (@unravel_valid (ldims L) i Hi).
    assert (valid c (ldims C)) as Vc by apply (@unravel_valid (ldims C) j Hj).
    assert (length r = length L) as Lr by (rewrite (valid_length Vr); apply ldims_length).
    assert (length c = length C) as Lc by (rewrite (valid_length Vc); apply ldims_length).
    destruct (qdec (charge_of L r) (qinv (charge_of C c))) as [E|E].
    - unfold b_at, b_cols, b_entries. rewrite E. rewrite mo_concat.
      rewrite (@nth_pair_grid K (fun r c => entry ls (bdata m) (unperm 0 order (r ++ c)))); [reflexivity | |]; apply In_sector; split; try assumption. rewrite qinv_inv. reflexivity.
    - apply entry_zero. rewrite charge_rc by assumption. intros E'. apply E. rewrite qcomm in E'. apply qinv_charge, E'.
  Qed.
End Mat.
