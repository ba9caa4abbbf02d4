(** * BstTensordot: block-sparse [tensordot] computes the dense contraction *)
From Coq Require Import Permutation Ring.
From Verif Require Import Prelude Algebra Tensor TensorFacts Res Charge ChargeFacts BlockSparse BlockSpec BstSpec ListFacts BlockFacts BlockDegen BlockReduce BlockMaps BlockTr BlockPart BstFacts BstConv BstDot.
Set Implicit Arguments.
Unset Strict Implicit.

Section TD.
  Context {G : chg} {K : csr}.
  Add Ring Kring : (rsr K).
  Notation bst := (bst G K).
  Implicit Types (t : bst) (ls : list (leg G)).

  Lemma nsum_nth A (l : list A) d (f : A -> K) : nsum (length l) (fun i => f (nth i l d)) = lsum l f.
  Proof. rewrite <- (gather_seq d l) at 2. unfold gather. rewrite lsum_map. reflexivity. Qed.

  Lemma allowed_nil : allowed (@nil (leg G)) = [[]].
  Proof. unfold allowed, sector. cbn. destruct (@qdec G qid qid); [reflexivity | congruence]. Qed.
  Lemma entry_nil (x : K) : entry (@nil (leg G)) [x] [] = x.
  Proof. rewrite entry_allowed by (rewrite allowed_nil; left; reflexivity). unfold pos. rewrite allowed_nil. reflexivity. Qed.

  Section Data.
    Variables (l1 l2 : list (leg G)) (d1 d2 : list K) (flat1 flat2 : list nat) (L C R : list (leg G)) (b1 b2 b : blocks (G := G)).
    Hypothesis P1 : is_perm (length l1) flat1.
    Hypothesis P2 : is_perm (length l2) flat2.
    Hypothesis E1 : gather ([], false) l1 flat1 = L ++ C.
    Hypothesis E2 : gather ([], false) l2 flat2 = map flip C ++ R.
    Hypothesis B1 : blocks_ok l1 flat1 (length L) b1.
    Hypothesis B2 : blocks_ok l2 flat2 (length C) b2.
    Hypothesis B : blocks_ok (L ++ R) (seq 0 (length (L ++ R))) (length L) b.
    Hypothesis Hcommon : forall q, In q (rep (bqs b1)) -> In q (rep (bqs b2)) -> In q (rep (bqs b)).

    Let psum := prod_sum l1 l2 d1 d2 flat1 flat2.
    Let D : list K := map (fun ix => psum (firstn (length L) ix) (skipn (length L) ix) (sector C (qinv (charge_of L (firstn (length L) ix))))) (allowed (L ++ R)).

    Lemma row1 : row_legs l1 flat1 (length L) = L.
    Proof. unfold row_legs. rewrite E1, firstn_app, Nat.sub_diag, firstn_all. apply app_nil_r. Qed.
    Lemma col1 : col_legs l1 flat1 (length L) = C.
    Proof. unfold col_legs. rewrite E1, skipn_app, Nat.sub_diag, skipn_all. reflexivity. Qed.
    Lemma row2 : row_legs l2 flat2 (length C) = map flip C.
    Proof. unfold row_legs. rewrite E2. rewrite <- (map_length flip C) at 1. rewrite firstn_app, Nat.sub_diag, firstn_all. apply app_nil_r. Qed.
    Lemma col2 : col_legs l2 flat2 (length C) = R.
    Proof. unfold col_legs. rewrite E2. rewrite <- (map_length flip C) at 1. rewrite skipn_app, Nat.sub_diag, skipn_all. reflexivity. Qed.
    Lemma row3 : row_legs (L ++ R) (seq 0 (length (L ++ R))) (length L) = L.
    Proof. unfold row_legs. rewrite gather_legs_seq by reflexivity. rewrite firstn_app, Nat.sub_diag, firstn_all. apply app_nil_r. Qed.
    Lemma col3 : col_legs (L ++ R) (seq 0 (length (L ++ R))) (length L) = R.
    Proof. unfold col_legs. rewrite gather_legs_seq by reflexivity. rewrite skipn_app, Nat.sub_diag, skipn_all. reflexivity. Qed.

    Lemma sector_len ls q ix : In ix (sector ls q) -> length ix = length ls.
    Proof. intros H. apply In_sector in H. destruct H as [H _]. apply valid_length in H. rewrite ldims_length in H. exact H. Qed.

    Lemma block_product q :
      let k := length (sector C (qinv q)) in
      matmul (length (sector L q)) k (length (sector R (qinv q)))
        (gather r0 d1 (block l1 flat1 (length L) q)) (gather r0 d2 (block l2 flat2 (length C) q)) =
      gather r0 D (block (L ++ R) (seq 0 (length (L ++ R))) (length L) q).
    Proof.
      cbv zeta. unfold block. rewrite row1, col1, row2, col2, row3, col3, sector_flip.
      set (rows := sector L q). set (ks := sector C (qinv q)). set (cols := sector R (qinv q)).
      unfold gather. rewrite !map_flat_map. unfold matmul.
      set (A := flat_map _ rows). set (B' := flat_map _ ks).
      transitivity (flat_map (fun i => map (fun j => psum (nth i rows []) (nth j cols []) ks) (seq 0 (length cols))) (seq 0 (length rows))).
      - apply flat_map_ext_in. intros i Hi. apply in_seq in Hi. apply map_ext_in. intros j Hj. apply in_seq in Hj.
        unfold psum, prod_sum. rewrite <- (nsum_nth ks []). apply nsum_ext. intros l Hl. unfold A, B'.
        assert (In (nth i rows []) rows) as Ir by (apply nth_In; lia).
        assert (In (nth j cols []) cols) as Ic by (apply nth_In; lia).
        assert (In (nth l ks []) ks) as Ik by (apply nth_In; lia).
        rewrite (@nth_flat_map_grid _ _ _ rows (length ks) i l _ []); [|intros; rewrite !map_length; reflexivity | lia | exact Hl].
        rewrite (@nth_flat_map_grid _ _ _ ks (length cols) l j _ []); [|intros; rewrite !map_length; reflexivity | exact Hl | lia].
        rewrite !map_map. rewrite (@nth_map_lt _ _ _ ks l _ []) by exact Hl. rewrite (@nth_map_lt _ _ _ cols j _ []) by lia.
        rewrite !entry_allowed; [reflexivity | |].
        + apply In_allowed_unperm; [exact P2|]. rewrite E2. apply (@allowed_pairs _ (map flip C) R q); [rewrite sector_flip; exact Ik | exact Ic].
        + apply In_allowed_unperm; [exact P1|]. rewrite E1. apply (@allowed_pairs _ L C q); [exact Ir | exact Ik].
      - rewrite <- (gather_seq [] rows) at 2. unfold gather. rewrite flat_map_map. apply flat_map_ext_in. intros i Hi. apply in_seq in Hi.
        rewrite <- (gather_seq [] cols) at 2. unfold gather. rewrite !map_map. apply map_ext_in. intros j Hj. apply in_seq in Hj.
        assert (In (nth i rows []) rows) as Ir by (apply nth_In; lia).
        assert (In (nth j cols []) cols) as Ic by (apply nth_In; lia).
        assert (In (nth i rows [] ++ nth j cols []) (allowed (L ++ R))) as Ha by (apply (@allowed_pairs _ L R q); assumption).
        rewrite unperm_seq by (apply sector_len in Ha; exact Ha).
        unfold D. rewrite (@nth_allowed _ _ (L ++ R) (fun ix => psum (firstn (length L) ix) (skipn (length L) ix) (sector C (qinv (charge_of L (firstn (length L) ix))))) _ Ha).
        pose proof (sector_len Ir) as Lr. rewrite <- Lr at 1 2 3. rewrite firstn_app, Nat.sub_diag, firstn_all. cbn [firstn]. rewrite app_nil_r.
        rewrite skipn_app, Nat.sub_diag, skipn_all. cbn [skipn app]. apply In_sector in Ir. destruct Ir as [_ Ir]. rewrite Ir. reflexivity.
    Qed.

    Let common := isect (uniques (bqs b1)) (uniques (bqs b2)).
    Let i1 := locs_in (uniques (bqs b1)) common.
    Let i2 := locs_in (uniques (bqs b2)) common.
    Let lf := locs_in (uniques (bqs b)) (isect (uniques (bqs b)) common).

    Lemma dot_data : exists data,
      fold_left (fun acc i =>
                rbind acc (fun data =>
                  let s1 := nth (nth i i1 0) (bdims b1) (0, 0) in
                  let s2 := nth (nth i i2 0) (bdims b2) (0, 0) in
                  let m := nth (nth i lf 0) (bmaps b) [] in
                  let vals := matmul (fst s1) (snd s1) (snd s2)
                                (gather r0 d1 (nth (nth i i1 0) (bmaps b1) []))
                                (gather r0 d2 (nth (nth i i2 0) (bmaps b2) [])) in
                  if (i <? length lf) && (snd s1 =? fst s2) && (length m =? length vals)
                  then Ok (scatter data m vals) else Raise))
                (seq 0 (length common)) (Ok (repeat r0 (list_sum (map (@length nat) (bmaps b))))) = Ok data /\
      length data = length (allowed (L ++ R)) /\
      (forall x y, valid x (ldims L) -> valid y (ldims R) -> entry (L ++ R) data (x ++ y) = psum x y (idxs (ldims C))).
    Proof.
      assert (blocks_ok (L ++ R) (seq 0 (length (L ++ R))) (length L) b) as Bs by exact B.
      destruct B1 as (_ & U1 & N1 & M1 & S1 & F1 & _). destruct B2 as (_ & U2 & N2 & M2 & S2 & F2 & _). destruct Bs as (_ & U & N & M & S & F & _).
      assert (forall q, In q common <-> In q (rep (bqs b1)) /\ In q (rep (bqs b2))) as Hc.
      { intros q. unfold common. rewrite In_isect, <- U1, <- U2. tauto. }
      assert (isect (uniques (bqs b)) common = common) as Ec.
      { unfold common at 2. apply isect_eq. intros q. rewrite <- U, <- U1, <- U2, Hc. split; [tauto|]. intros [H1 H2]. split; [apply Hcommon; assumption | tauto]. }
      assert (is_perm (length (L ++ R)) (seq 0 (length (L ++ R)))) as Hseq by apply is_perm_seq.
      pose proof (blocks_partition Hseq (ltac:(rewrite app_length; lia) : length L <= length (L ++ R)) B) as Hpart.
      assert (list_sum (map (@length nat) (bmaps b)) = length (allowed (L ++ R))) as En.
      { rewrite list_sum_lengths. apply Permutation_length in Hpart. rewrite seq_length in Hpart. exact Hpart. }
      rewrite En. set (pss := map (block (L ++ R) (seq 0 (length (L ++ R))) (length L)) common).
      exists (fold_left (fun a ps => scatter a ps (gather r0 D ps)) pss (repeat r0 (length (allowed (L ++ R))))). split; [|split].
      - assert (forall ns acc, (forall i, In i ns -> i < length common) ->
          fold_left (fun acc i => rbind acc (fun data =>
                  let s1 := nth (nth i i1 0) (bdims b1) (0, 0) in
                  let s2 := nth (nth i i2 0) (bdims b2) (0, 0) in
                  let m := nth (nth i lf 0) (bmaps b) [] in
                  let vals := matmul (fst s1) (snd s1) (snd s2)
                                (gather r0 d1 (nth (nth i i1 0) (bmaps b1) []))
                                (gather r0 d2 (nth (nth i i2 0) (bmaps b2) [])) in
                  if (i <? length lf) && (snd s1 =? fst s2) && (length m =? length vals)
                  then Ok (scatter data m vals) else Raise)) ns (Ok acc) =
          Ok (fold_left (fun a ps => scatter a ps (gather r0 D ps)) (map (fun i => nth i pss []) ns) acc)) as Hfold.
        { match goal with |- forall ns acc, _ -> fold_left ?F ns (Ok acc) = _ => set (FF := F) end.
          induction ns as [|i ns IH]; intros acc Hns; [reflexivity|]. cbn [fold_left map].
          match goal with |- _ = Ok (fold_left _ _ ?a) => assert (FF (Ok acc) i = Ok a) as ->; [|apply IH; intros; apply Hns; right; assumption] end.
          unfold FF. cbn [rbind]. cbv zeta.
          assert (i < length common) as Hi by (apply Hns; left; reflexivity).
          set (q := nth i common qid). assert (In q common) as Hq by (apply nth_In, Hi). pose proof Hq as Hq'. apply Hc in Hq'. destruct Hq' as [Q1 Q2].
          assert (nth i i1 0 = index_of qdec q (rep (bqs b1))) as ->.
          { unfold i1, locs_in. rewrite (@nth_map_lt _ _ _ _ _ _ qid) by exact Hi. rewrite U1. reflexivity. }
          assert (nth i i2 0 = index_of qdec q (rep (bqs b2))) as ->.
          { unfold i2, locs_in. rewrite (@nth_map_lt _ _ _ _ _ _ qid) by exact Hi. rewrite U2. reflexivity. }
          assert (nth i lf 0 = index_of qdec q (rep (bqs b))) as ->.
          { unfold lf, locs_in. rewrite Ec, (@nth_map_lt _ _ _ _ _ _ qid) by exact Hi. rewrite U. reflexivity. }
          assert (length lf = length common) as -> by (unfold lf, locs_in; rewrite map_length, Ec; reflexivity).
          pose proof (Hcommon Q1 Q2) as Q3.
          rewrite S1, S2, M1, M2, M.
          rewrite !(@nth_map_lt _ _ _ _ _ _ qid) by (apply index_of_lt; assumption). rewrite !nth_index_of by assumption.
          unfold block_shape. cbn [fst snd]. rewrite row1, col1, row2, col2, sector_flip.
          rewrite block_product. rewrite gather_length, !Nat.eqb_refl. apply Nat.ltb_lt in Hi as Hi'. rewrite Hi'. cbn [andb].
          unfold pss. rewrite (@nth_map_lt _ _ _ _ _ _ qid) by exact Hi. reflexivity. }
        rewrite Hfold by (intros i Hi; apply in_seq in Hi; lia). do 2 f_equal.
        assert (length common = length pss) as -> by (unfold pss; rewrite map_length; reflexivity). apply gather_seq.
      - rewrite fold_scatter_length. apply repeat_length.
      - intros x y Hx Hy. pose proof (valid_length Hx) as Lx. rewrite ldims_length in Lx. pose proof (valid_length Hy) as Ly. rewrite ldims_length in Ly.
        destruct (qdec (charge_of (L ++ R) (x ++ y)) qid) as [E|Nq].
        2: { rewrite entry_zero by exact Nq. symmetry. rewrite charge_of_app in Nq by exact Lx. apply (prod_sum_zero d1 d2 P1 P2 E1 E2 Lx Ly Nq). }
        assert (In (x ++ y) (allowed (L ++ R))) as Ha.
        { apply In_sector. split; [rewrite ldims_app; apply valid_app; assumption | exact E]. }
        rewrite entry_allowed by exact Ha. set (q := charge_of L x).
        assert (In x (sector L q)) as Ix by (apply In_sector; auto).
        assert (In y (sector R (qinv q))) as Iy.
        { apply In_sector. split; [exact Hy|]. rewrite charge_of_app in E by exact Lx. rewrite qcomm in E. apply qop_eq_id, E. }
        assert (firstn (length L) (x ++ y) = x) as Fx by (rewrite <- Lx, firstn_app, Nat.sub_diag, firstn_all; apply app_nil_r).
        assert (skipn (length L) (x ++ y) = y) as Fy by (rewrite <- Lx, skipn_app, Nat.sub_diag, skipn_all; reflexivity).
        rewrite (@scatter_parts _ D r0 _ (length (allowed (L ++ R)))).
        + destruct (in_dec Nat.eq_dec (pos (L ++ R) (x ++ y)) (concat pss)) as [Hin|Hnot].
          * unfold D. rewrite (@nth_allowed _ _ (L ++ R) (fun ix => psum (firstn (length L) ix) (skipn (length L) ix) (sector C (qinv (charge_of L (firstn (length L) ix))))) _ Ha).
            rewrite Fx, Fy. symmetry. apply (prod_sum_sector l2 d1 d2 flat2 P1 E1 Lx Ly).
          * rewrite nth_repeat. symmetry. transitivity (psum x y (sector C (qinv q))); [apply (prod_sum_sector l2 d1 d2 flat2 P1 E1 Lx Ly)|].
            assert (sector C (qinv q) = []) as ->; [|reflexivity].
            destruct (sector C (qinv q)) as [|k0 s0] eqn:Es; [reflexivity|]. exfalso. apply Hnot.
            assert (In q common) as Hq.
            { apply Hc. split.
              - apply F1; [rewrite row1 | rewrite col1, Es; discriminate]. intros E0. rewrite E0 in Ix. exact Ix.
              - apply F2; [rewrite row2, sector_flip, Es; discriminate | rewrite col2]. intros E0. rewrite E0 in Iy. exact Iy. }
            apply in_concat. exists (block (L ++ R) (seq 0 (length (L ++ R))) (length L) q). split; [apply in_map, Hq|].
            apply In_block; [exact Hseq | rewrite app_length; lia|]. exists (x ++ y). split; [exact Ha|]. split; [reflexivity|].
            rewrite row3. assert (gather 0 (x ++ y) (seq 0 (length (L ++ R))) = x ++ y) as ->.
            { assert (length (L ++ R) = length (x ++ y)) as -> by (rewrite !app_length; congruence). apply gather_seq. }
            rewrite Fx. reflexivity.
        + apply repeat_length.
        + intros ps z Hps Hz. unfold pss in Hps. apply in_map_iff in Hps. destruct Hps as (q' & <- & _).
          apply In_block in Hz; [|exact Hseq | rewrite app_length; lia]. destruct Hz as (ix & Hix & <- & _). apply pos_lt, Hix.
        + intros ps Hps. unfold pss in Hps. apply in_map_iff in Hps. destruct Hps as (q' & <- & _). apply NoDup_block, Hseq.
    Qed.
  End Data.

  Lemma diag_blocks_edge lim blim (cs : list (bc G)) fs p B0 : diag_blocks lim blim cs fs p = Ok B0 -> p = 0 \/ p = length cs -> rep (bqs B0) = [qid].
  Proof.
    intros H Hp. unfold diag_blocks in H. assert ((p =? 0) || (p =? length cs) = true) as E.
    { apply orb_true_iff. destruct Hp as [->| ->]; [left; reflexivity | right; apply Nat.eqb_refl]. }
    rewrite E in H. destruct (num_nonzero lim cs fs) as [n| |]; try discriminate. cbn [rbind] in H. destruct cs; [discriminate|]. injection H as <-. reflexivity.
  Qed.

  (** grouped level: an entry of a dense tensor whose axes are listed as [order] *)
  Lemma dense_mat t order J : wf_bst t -> is_perm (ndim t) order -> length J = ndim t ->
    elt (dense_of t) (unperm 0 order J) =
    entry (elegs t) (bdata t) (unperm 0 (concat (gather [] (bord t) order))
      (split_index (gather [] (map (gather 0 (ldims (elegs t))) (bord t)) order) J)).
  Proof.
    intros W Ho HJ. rewrite dense_elt. f_equal. symmetry. apply (@split_unperm_gather _ _ _ _ (length (bcs t))); [exact Ho | apply wf_perm, W | | exact HJ].
    rewrite map_map. apply map_ext. intros o. apply gather_length.
  Qed.
  Lemma wf_flat t order : wf_bst t -> is_perm (ndim t) order -> is_perm (length (bcs t)) (concat (gather [] (bord t) order)).
  Proof. intros W Ho. unfold is_perm. rewrite (concat_gather_perm Ho). apply wf_perm, W. Qed.
  Lemma gather_groups t axes : (forall i, In i axes -> i < ndim t) ->
    gather [] (map (gather 0 (ldims (elegs t))) (bord t)) axes = map (gather 0 (ldims (elegs t))) (gather [] (bord t) axes).
  Proof. intros H. symmetry. apply map_gather. exact H. Qed.

  Variables lim blim junk : nat.
  Hypothesis lim_pos : 0 < lim.

  Lemma tensordot_nil (a b : tensor K) : teq (tensordot a b [] []) (outer a b).
  Proof.
    assert (forall n, free_axes n [] = seq 0 n) as Hf.
    { intros n. unfold free_axes. apply filter_all. intros i _. reflexivity. }
    unfold tensordot, outer. rewrite !Hf. split.
    - cbn [shape]. unfold rank. rewrite !gather_seq. reflexivity.
    - cbn [shape elt]. unfold rank. rewrite !gather_seq. intros I HI. cbn [gather map idxs]. rewrite seq_length, !app_nil_r.
      destruct (@valid_app_inv _ _ _ HI) as [H1 H2]. rewrite lsum_cons, lsum_nil, !app_nil_r.
      rewrite !unperm_seq by (apply valid_length; assumption). ring.
  Qed.

  Lemma gather_app_eq A (d : A) l x y : gather d l (x ++ y) = gather d l x ++ gather d l y.
  Proof. apply gather_app. Qed.

  (** a dense contraction in terms of entries *)
  Lemma dense_tensordot t1 t2 axes1 axes2 : wf_bst t1 -> wf_bst t2 -> compatible t1 t2 axes1 axes2 ->
    let f1 := free_axes (ndim t1) axes1 in
    let f2 := free_axes (ndim t2) axes2 in
    let gs1 := map (gather 0 (ldims (elegs t1))) (gather [] (bord t1) f1) in
    let gs2 := map (gather 0 (ldims (elegs t2))) (gather [] (bord t2) f2) in
    let d := tensordot (dense_of t1) (dense_of t2) axes1 axes2 in
    shape d = map nprod (gs1 ++ gs2) /\
    forall I, valid I (shape d) ->
      elt d I = prod_sum (elegs t1) (elegs t2) (bdata t1) (bdata t2)
        (concat (gather [] (bord t1) (f1 ++ axes1))) (concat (gather [] (bord t2) (axes2 ++ f2)))
        (split_index gs1 (firstn (length f1) I)) (split_index gs2 (skipn (length f1) I))
        (idxs (gather 0 (ldims (elegs t1)) (con_legs t1 axes1))).
  Proof.
    intros W1 W2 (C1 & C2 & C3 & C4 & C5 & C6 & C7 & C8 & C9). cbv zeta.
    set (f1 := free_axes (ndim t1) axes1). set (f2 := free_axes (ndim t2) axes2).
    assert (is_perm (ndim t1) (f1 ++ axes1)) as Q1 by (apply free_axes_perm; assumption).
    assert (is_perm (ndim t2) (f2 ++ axes2)) as Q2 by (apply free_axes_perm; assumption).
    assert (forall i, In i f1 -> i < ndim t1) as Hf1 by (intros i Hi; apply In_free_axes in Hi; apply Hi).
    assert (forall i, In i f2 -> i < ndim t2) as Hf2 by (intros i Hi; apply In_free_axes in Hi; apply Hi).
    assert (forall t, rank (dense_of t) = ndim t) as Hrank by (intros t; unfold rank; rewrite dense_shape, !map_length; reflexivity).
    assert (forall t axes, (forall i, In i axes -> i < ndim t) -> gather 0 (shape (dense_of t)) axes = map nprod (map (gather 0 (ldims (elegs t))) (gather [] (bord t) axes))) as Hsh.
    { intros t axes Ha. rewrite dense_shape, <- gather_groups by exact Ha. symmetry. apply map_gather. intros i Hi. rewrite map_length. apply Ha, Hi. }
    assert (shape (tensordot (dense_of t1) (dense_of t2) axes1 axes2) =
      map nprod (map (gather 0 (ldims (elegs t1))) (gather [] (bord t1) f1) ++ map (gather 0 (ldims (elegs t2))) (gather [] (bord t2) f2))) as Eshape.
    { unfold tensordot. cbn [shape]. rewrite !Hrank. fold f1. fold f2. rewrite !Hsh by assumption. symmetry. apply map_app. }
    split; [exact Eshape|]. intros I HI. rewrite Eshape, map_app in HI. destruct (@valid_app_inv _ _ _ HI) as [V1 V2].
    rewrite !map_length, gather_length in V1, V2.
    unfold tensordot. cbn [elt]. rewrite !Hrank. fold f1. fold f2.
    set (ia := firstn (length f1) I) in *. set (ib := skipn (length f1) I) in *.
    pose proof (valid_length V1) as La. rewrite !map_length, gather_length in La.
    pose proof (valid_length V2) as Lb. rewrite !map_length, gather_length in Lb.
    set (c1 := map (gather 0 (ldims (elegs t1))) (gather [] (bord t1) axes1)). set (c2 := map (gather 0 (ldims (elegs t2))) (gather [] (bord t2) axes2)).
    assert (concat c1 = gather 0 (ldims (elegs t1)) (con_legs t1 axes1)) as Ec1 by (unfold con_legs; rewrite gather_concat; reflexivity).
    assert (concat c2 = gather 0 (ldims (elegs t2)) (con_legs t2 axes2)) as Ec2 by (unfold con_legs; rewrite gather_concat; reflexivity).
    pose proof (wf_flat W1 Q1) as PF1. pose proof (wf_flat W2 Q2) as PF2. rewrite gather_app, concat_app in PF1, PF2.
    assert (forall i, In i (con_legs t1 axes1) -> i < length (bcs t1)) as Hcl1.
    { intros i Hi. apply (@is_perm_In _ _ i PF1), in_or_app. right. exact Hi. }
    assert (forall i, In i (con_legs t2 axes2) -> i < length (bcs t2)) as Hcl2.
    { intros i Hi. apply (@is_perm_In _ _ i PF2), in_or_app. right. exact Hi. }
    assert (gather ([], false) (elegs t2) (con_legs t2 axes2) = map flip (gather ([], false) (elegs t1) (con_legs t1 axes1))) as Eflip.
    { unfold elegs. rewrite <- !legs_gather; [|apply wf_len, W1 | exact Hcl1 | apply wf_len, W2 | exact Hcl2].
      apply flip_legs; [rewrite !gather_length; exact C7 | apply leqb_true, C8 | exact C9]. }
    assert (concat c1 = concat c2) as Ec.
    { rewrite Ec1, Ec2. rewrite <- !ldims_gather; [|rewrite (wf_legs_length W2); exact Hcl2 | rewrite (wf_legs_length W1); exact Hcl1].
      rewrite Eflip, ldims_flip. reflexivity. }
    assert (map nprod c1 = map nprod c2) as Ep.
    { unfold c1, c2. rewrite <- !Hsh by assumption. rewrite <- (wf_shape W1), <- (wf_shape W2). exact C6. }
    assert (forall V, valid V (map nprod c1) -> split_index c1 V = split_index c2 V) as Es.
    { intros V HV. rewrite <- unravel_split_index by exact HV. rewrite Ec, Ep. apply unravel_split_index. rewrite <- Ep. exact HV. }
    rewrite Hsh by assumption. fold c1. unfold prod_sum. rewrite <- Ec1, <- map_split_idxs, lsum_map. apply lsum_ext. intros V HV. apply In_idxs in HV.
    pose proof (valid_length HV) as LV. unfold c1 in LV. rewrite !map_length, gather_length in LV.
    f_equal.
    - rewrite dense_mat; [|exact W1 | exact Q1 | rewrite app_length, La, LV, <- app_length; apply is_perm_length, Q1].
      f_equal. f_equal. rewrite gather_groups by (intros i Hi; apply (@is_perm_In _ _ i Q1), Hi). rewrite gather_app, map_app, split_index_app; [reflexivity|].
      rewrite map_length, gather_length. exact La.
    - rewrite dense_mat; [|exact W2 | exact Q2 | rewrite app_length, Lb, LV, C1, <- app_length; apply is_perm_length, Q2].
      f_equal. rewrite gather_groups by (intros i Hi; apply (@is_perm_In _ _ i Q2), Hi). rewrite gather_app, map_app, split_index_app by (rewrite map_length, gather_length; exact Lb).
      fold c2. rewrite Es by exact HV. rewrite !gather_app, !concat_app.
      apply (@unperm_swap (length (bcs t2))); [exact PF2 | |].
      + rewrite split_index_length by (rewrite map_length, gather_length; exact Lb). rewrite <- gather_concat. apply gather_length.
      + rewrite split_index_length by (unfold c2; rewrite map_length, gather_length, LV; exact C1). unfold c2. rewrite <- gather_concat. apply gather_length.
  Qed.

  Lemma groups_from_shift k s lens : map (map (fun i => i + k)) (groups_from s lens) = groups_from (s + k) lens.
  Proof.
    revert s. induction lens as [|n r IH]; intros s; [reflexivity|]. cbn [groups_from map]. f_equal.
    - rewrite <- (map_add_seq s), <- (map_add_seq (s + k)), map_map. apply map_ext. intros i. lia.
    - rewrite IH. f_equal. lia.
  Qed.
  Lemma groups_app A (d : A) (x y : list (list A)) :
    map (gather d (concat (x ++ y))) (groups_from 0 (map (@length A) x) ++ groups_from (length (concat x)) (map (@length A) y)) = x ++ y.
  Proof.
    transitivity (map (gather d (concat (x ++ y))) (groups_from 0 (map (@length A) (x ++ y)))).
    - f_equal. rewrite map_app. rewrite <- list_sum_lengths.
      assert (forall s l l', groups_from s (l ++ l') = groups_from s l ++ groups_from (s + list_sum l) l') as H.
      { clear. intros s l l'. revert s. induction l as [|n l IH]; intros s; [rewrite Nat.add_0_r; reflexivity|].
        cbn [app groups_from]. f_equal. rewrite IH. do 2 f_equal. change (list_sum (n :: l)) with (n + list_sum l). lia. }
      rewrite H. reflexivity.
    - exact (groups_from_gather d (x ++ y) []).
  Qed.

  Lemma groups_concat (x y : list (list nat)) :
    concat (groups_from 0 (map (@length nat) x) ++ groups_from (length (concat x)) (map (@length nat) y)) = seq 0 (length (concat (x ++ y))).
  Proof. rewrite concat_app, !groups_from_concat, !list_sum_lengths, concat_app, app_length, seq_app. reflexivity. Qed.

  (** ** The theorem *)
  Lemma btensordot_spec t1 t2 axes1 axes2 : wf_bst t1 -> wf_bst t2 -> compatible t1 t2 axes1 axes2 ->
    bord t1 ++ bord t2 <> [] ->
    exists t, btensordot lim blim junk t1 t2 axes1 axes2 = Ok t /\ wf_bst t /\
      teq (dense_of t) (tensordot (dense_of t1) (dense_of t2) axes1 axes2).
  Proof.
    intros W1 W2 HC Hne. pose proof HC as (C1 & C2 & C3 & C4 & C5 & C6 & C7 & C8 & C9).
    pose proof (dense_tensordot W1 W2 HC) as HD. cbv zeta in HD. destruct HD as [HDs HDe].
    unfold btensordot. rewrite C1, Nat.eqb_refl. cbn [negb].
    set (f1 := free_axes (ndim t1) axes1) in *. set (f2 := free_axes (ndim t2) axes2) in *.
    assert (is_perm (ndim t1) (f1 ++ axes1)) as Q1 by (apply free_axes_perm; assumption).
    assert (is_perm (ndim t2) (axes2 ++ f2)) as Q2 by (apply free_axes_perm'; assumption).
    pose proof (is_perm_length Q1) as LQ1. pose proof (is_perm_length Q2) as LQ2. rewrite app_length in LQ1, LQ2.
    assert ((ndim t1 <? length axes2) || (ndim t2 <? length axes2) = false) as ->.
    { apply orb_false_iff. split; apply Nat.ltb_ge; lia. }
    destruct (Nat.eqb_spec (length axes2) 0) as [Z|NZ].
    { assert (axes2 = []) as -> by (apply length_zero_iff_nil, Z). assert (axes1 = []) as -> by (apply length_zero_iff_nil; lia).
      destruct (@outerproduct_spec G K lim blim lim_pos t1 t2 W1 W2) as (t & Et & Wt & _ & _ & Ht).
      { intros E. apply Hne. apply app_eq_nil in E. destruct E as [Ea Eb]. apply (wf_nil W1) in Ea. apply (wf_nil W2) in Eb. rewrite Ea, Eb. reflexivity. }
      exists t. split; [exact Et|]. split; [exact Wt|]. eapply teq_trans; [exact Ht|]. apply teq_sym, tensordot_nil. }
    assert (forallb (fun i => i <? ndim t1) axes1 && forallb (fun i => i <? ndim t2) axes2 = true) as ->.
    { apply andb_true_iff. split; apply forallb_forall; intros i Hi; apply Nat.ltb_lt; [apply C4, Hi | apply C5, Hi]. }
    cbn [negb]. fold (con_legs t1 axes1). fold (con_legs t2 axes2). set (con1 := con_legs t1 axes1) in *. set (con2 := con_legs t2 axes2) in *.
    rewrite (gather_length (Raw []) (bcs t1) con1), (gather_length (Raw []) (bcs t2) con2), C7, Nat.eqb_refl. cbn [negb].
    assert (leqb Bool.bool_dec (gather false (bfs t1) con1) (map negb (gather false (bfs t2) con2)) = true) as ->.
    { apply leqb_true. exact C8. }
    cbn [negb]. rewrite C9. cbn [negb].
    set (l1 := elegs t1) in *. set (l2 := elegs t2) in *.
    pose proof (wf_flat W1 Q1) as PF1. pose proof (wf_flat W2 Q2) as PF2.
    assert (length l1 = length (bcs t1)) as Ll1 by (apply wf_legs_length, W1).
    assert (length l2 = length (bcs t2)) as Ll2 by (apply wf_legs_length, W2).
    rewrite gather_app, concat_app in PF1, PF2. fold (con_legs t1 axes1) in PF1. fold con1 in PF1. fold (con_legs t2 axes2) in PF2. fold con2 in PF2.
    set (ff1 := concat (gather [] (bord t1) f1)) in *. set (ff2 := concat (gather [] (bord t2) f2)) in *.
    assert (forall i, In i con1 -> i < length (bcs t1)) as Hcl1 by (intros i Hi; apply (@is_perm_In _ _ i PF1), in_or_app; right; exact Hi).
    assert (forall i, In i con2 -> i < length (bcs t2)) as Hcl2 by (intros i Hi; apply (@is_perm_In _ _ i PF2), in_or_app; left; exact Hi).
    assert (forall i, In i ff1 -> i < length (bcs t1)) as Hfl1 by (intros i Hi; apply (@is_perm_In _ _ i PF1), in_or_app; left; exact Hi).
    assert (forall i, In i ff2 -> i < length (bcs t2)) as Hfl2 by (intros i Hi; apply (@is_perm_In _ _ i PF2), in_or_app; right; exact Hi).
    set (C := gather ([], false) l1 con1). set (L := gather ([], false) l1 ff1). set (R := gather ([], false) l2 ff2).
    assert (gather ([], false) l2 con2 = map flip C) as Eflip.
    { unfold C, l1, l2, elegs. rewrite <- !legs_gather; [|apply wf_len, W1 | exact Hcl1 | apply wf_len, W2 | exact Hcl2].
      apply flip_legs; [rewrite !gather_length; exact C7 | apply leqb_true, C8 | exact C9]. }
    assert (con1 <> []) as Nc1.
    { unfold con1, con_legs. destruct axes1 as [|x r]; [cbn in C1; lia|]. cbn [gather map concat]. intros E. apply app_eq_nil in E. destruct E as [E _].
      destruct W1 as (_ & _ & _ & _ & W). apply (W (nth x (bord t1) [])); [apply nth_In, C4; left; reflexivity | exact E]. }
    assert (length C = length con1) as LC by (unfold C; apply gather_length).
    assert (ldims C = gather 0 (ldims l1) con1) as EdC by (apply ldims_gather; rewrite Ll1; exact Hcl1).
    destruct ((length axes2 =? ndim t1) && (length axes2 =? ndim t2)) eqn:Efull.
    - (* inner product *)
      apply andb_true_iff in Efull. destruct Efull as [F1 F2]. apply Nat.eqb_eq in F1, F2.
      assert (f1 = []) as Nf1 by (apply length_zero_iff_nil; lia). assert (f2 = []) as Nf2 by (apply length_zero_iff_nil; lia).
      assert (is_perm (ndim t1) axes1) as Qa1 by (rewrite Nf1 in Q1; exact Q1).
      assert (is_perm (ndim t2) axes2) as Qa2 by (rewrite Nf2, app_nil_r in Q2; exact Q2).
      destruct (btranspose_spec W1 Qa1) as (s1 & Es1 & Ws1 & A1 & A2 & A3 & A4 & _).
      destruct (btranspose_spec W2 Qa2) as (s2 & Es2 & Ws2 & A5 & A6 & A7 & A8 & _).
      assert (flat_order s1 = con1) as Ef1 by (unfold flat_order; rewrite A4; reflexivity).
      assert (flat_order s2 = con2) as Ef2 by (unfold flat_order; rewrite A8; reflexivity).
      assert (is_perm (length (bcs t1)) con1) as Pc1 by (unfold ff1 in PF1; rewrite Nf1 in PF1; exact PF1).
      assert (is_perm (length (bcs t2)) con2) as Pc2 by (unfold ff2 in PF2; rewrite Nf2, app_nil_r in PF2; exact PF2).
      destruct (@contiguous_spec G K lim blim junk lim_pos s1 con1 Ws1) as (u1 & Eu1 & Wu1 & G1 & G2 & _ & G3 & _); [rewrite A2; exact Pc1|].
      destruct (@contiguous_spec G K lim blim junk lim_pos s2 con2 Ws2) as (u2 & Eu2 & Wu2 & G4 & G5 & _ & G6 & _); [rewrite A6; exact Pc2|].
      rewrite Es1. cbn [rbind]. rewrite Ef1, Eu1. cbn [rbind]. rewrite Es2. cbn [rbind]. rewrite Ef2, Eu2. cbn [rbind].
      assert (elegs s1 = l1) as Hl1 by (unfold elegs; rewrite A2, A3; reflexivity).
      assert (elegs s2 = l2) as Hl2 by (unfold elegs; rewrite A6, A7; reflexivity).
      assert (elegs u1 = C) as HC1.
      { unfold elegs. rewrite G1, G2, A2, A3. apply legs_gather; [apply wf_len, W1 | exact Hcl1]. }
      assert (elegs u2 = map flip C) as HC2.
      { rewrite <- Eflip. unfold elegs. rewrite G4, G5, A6, A7. apply legs_gather; [apply wf_len, W2 | exact Hcl2]. }
      pose proof (wf_data Wu1) as Du1. pose proof (wf_data Wu2) as Du2. rewrite HC1 in Du1. rewrite HC2 in Du2.
      assert (allowed (map flip C) = allowed C) as Eal by (unfold allowed; rewrite sector_flip, qinv_id; reflexivity). rewrite Eal in Du2.
      rewrite Du1, Du2, Nat.eqb_refl. eexists. split; [reflexivity|]. split.
      + split; [reflexivity|]. split; [intros c []|]. split; [|split; [apply (is_perm_seq 0) | intros o []]].
        unfold elegs. cbn [bcs bfs legs bdata]. unfold legs. cbn [map combine]. rewrite allowed_nil. reflexivity.
      + unfold f1, f2 in HDs, HDe. fold f1 in HDs, HDe. fold f2 in HDs, HDe. rewrite Nf1, Nf2 in HDs, HDe. cbn [gather map app] in HDs, HDe.
        split; [rewrite HDs; reflexivity|]. intros I HI. assert (I = []) as -> by (inversion HI; reflexivity). rewrite HDe by (rewrite HDs; constructor).
        cbn [length firstn skipn split_index concat map gather app]. rewrite app_nil_r.
        rewrite dense_elt. unfold elegs at 1 2. cbn [bcs bfs legs bord concat map bdata gather split_index unperm].
        unfold legs. cbn [map combine]. change (@unperm nat 0 [] []) with (@nil nat). rewrite entry_nil.
        assert (forall (u : bst) ls, length (bdata u) = length (allowed ls) -> bdata u = map (fun ix => entry ls (bdata u) ix) (allowed ls)) as Hmap.
        { intros u ls Hl. apply (@data_ext G K ls); [exact Hl | rewrite map_length; reflexivity|]. intros ix Hix.
          rewrite (entry_allowed (map _ _)) by exact Hix. symmetry. apply (@nth_allowed _ _ ls (fun ix => entry ls (bdata u) ix) _ Hix). }
        rewrite (Hmap u1 C Du1). rewrite <- Eal in Du2. rewrite (Hmap u2 (map flip C) Du2). rewrite Eal.
        rewrite lsum_combine by reflexivity. rewrite lsum_combine_diag. cbn [fst snd].
        transitivity (lsum (idxs (ldims C)) (fun k => entry C (bdata u1) k *! entry (map flip C) (bdata u2) k)).
        * unfold allowed, sector. rewrite lsum_filter. apply lsum_ext. intros k _.
          destruct (qdec (charge_of C k) qid) as [_|N]; [reflexivity|]. rewrite (entry_zero (bdata u1) N). ring.
        * unfold prod_sum. rewrite <- EdC. apply lsum_ext. intros k Hk. apply In_idxs in Hk.
          rewrite <- HC1 in Hk |- *. rewrite G3 by exact Hk. rewrite HC1 in Hk. rewrite <- (ldims_flip C), <- HC2 in Hk. rewrite HC1.
          rewrite <- HC2. rewrite G6 by exact Hk. rewrite Hl1, Hl2, A1, A5. rewrite app_nil_r. reflexivity.
    - (* blockwise products *)
      cbv zeta. fold f1. fold f2. fold ff1. fold ff2.
      set (lcs := gather (Raw []) (bcs t1) ff1). set (lfs := gather false (bfs t1) ff1).
      set (rcs := gather (Raw []) (bcs t2) ff2). set (rfs := gather false (bfs t2) ff2).
      assert (legs lcs lfs = L) as EL by (apply legs_gather; [apply wf_len, W1 | exact Hfl1]).
      assert (legs rcs rfs = R) as ER by (apply legs_gather; [apply wf_len, W2 | exact Hfl2]).
      assert (length lcs = length L) as LL by (unfold lcs, L; rewrite !gather_length; reflexivity).
      assert (length lcs = length lfs) as LLf by (unfold lcs, lfs; rewrite !gather_length; reflexivity).
      assert (length rcs = length R) as LR by (unfold rcs, R; rewrite !gather_length; reflexivity).
      assert (length rcs = length rfs) as LRf by (unfold rcs, rfs; rewrite !gather_length; reflexivity).
      assert (gather ([], false) l1 (ff1 ++ con1) = L ++ C) as E1 by apply gather_app.
      assert (gather ([], false) l2 (con2 ++ ff2) = map flip C ++ R) as E2 by (rewrite gather_app, Eflip; reflexivity).
      assert (length ff1 + length con1 = length (bcs t1)) as Ln1 by (rewrite <- app_length; apply is_perm_length, PF1).
      assert (length con2 + length ff2 = length (bcs t2)) as Ln2 by (rewrite <- app_length; apply is_perm_length, PF2).
      assert (length con1 <> 0) as Nl1 by (destruct con1; [congruence | discriminate]).
      assert (length L = length ff1) as Lff1 by (unfold L; apply gather_length).
      assert (length R = length ff2) as Lff2 by (unfold R; apply gather_length).
      assert (bcs t1 <> []) as Nb1 by (intros E; rewrite E in Ln1; cbn in Ln1; lia).
      assert (bcs t2 <> []) as Nb2 by (intros E; rewrite E in Ln2; cbn in Ln2; lia).
      assert (lcs ++ rcs <> []) as Nlr.
      { assert (forall t f, (forall i, In i f -> i < ndim t) -> wf_bst t -> f <> [] -> concat (gather [] (bord t) f) <> []) as Hnn.
        { intros t f Hf Wt Nf. destruct f as [|x r]; [congruence|]. cbn [gather map concat]. intros E. apply app_eq_nil in E. destruct E as [E _].
          destruct Wt as (_ & _ & _ & _ & W). apply (W (nth x (bord t) [])); [apply nth_In, Hf; left; reflexivity | exact E]. }
        intros E. apply app_eq_nil in E. destruct E as [Ea Eb]. apply (f_equal (@length _)) in Ea, Eb.
        unfold lcs, rcs in Ea, Eb. rewrite gather_length in Ea, Eb. cbn in Ea, Eb. apply length_zero_iff_nil in Ea, Eb.
        assert (f1 = []) as Z1.
        { destruct f1 as [|x r] eqn:E1'; [reflexivity|]. exfalso. apply (Hnn t1 (x :: r)); [|exact W1 | discriminate | exact Ea].
          intros i Hi. apply (In_free_axes (ndim t1) axes1). unfold f1 in E1'. rewrite E1'. exact Hi. }
        assert (f2 = []) as Z2.
        { destruct f2 as [|x r] eqn:E2'; [reflexivity|]. exfalso. apply (Hnn t2 (x :: r)); [|exact W2 | discriminate | exact Eb].
          intros i Hi. apply (In_free_axes (ndim t2) axes2). unfold f2 in E2'. rewrite E2'. exact Hi. }
        rewrite Z1 in LQ1. rewrite Z2 in LQ2. cbn in LQ1, LQ2.
        assert (length axes2 = ndim t1) as Ha by lia. assert (length axes2 = ndim t2) as Hb by lia.
        rewrite Ha in Efull at 1. rewrite Nat.eqb_refl in Efull. cbn [andb] in Efull. rewrite Hb, Nat.eqb_refl in Efull. discriminate. }
      destruct (@tr_blocks_spec G lim blim junk lim_pos (bcs t1) (bfs t1) (length lcs) (ff1 ++ con1) (wf_ok W1) (wf_len W1) Nb1) as (b1 & Eb1 & B1); [lia | exact PF1|].
      destruct (@tr_blocks_spec G lim blim junk lim_pos (bcs t2) (bfs t2) (length con2) (con2 ++ ff2) (wf_ok W2) (wf_len W2) Nb2) as (b2 & Eb2 & B2); [lia | exact PF2|].
      destruct (@diag_blocks_spec G lim blim lim_pos (lcs ++ rcs) (lfs ++ rfs) (length lcs)) as (b & Eb & B3);
        [apply all_ok_app; apply all_ok_gather; [apply wf_ok, W1 | apply wf_ok, W2] | rewrite !app_length; lia | exact Nlr | rewrite app_length; lia |].
      rewrite Eb1. cbn [rbind]. rewrite Eb2. cbn [rbind].
      assert (tr_blocks lim blim junk (lcs ++ rcs) (lfs ++ rfs) (length lcs) (seq 0 (length (lcs ++ rcs))) = Ok b) as ->.
      { unfold tr_blocks. assert (leqb Nat.eq_dec (seq 0 (length (lcs ++ rcs))) (seq 0 (length (lcs ++ rcs))) = true) as -> by (apply leqb_true; reflexivity). exact Eb. }
      cbn [rbind]. fold (elegs t1) in B1. fold l1 in B1. fold (elegs t2) in B2. fold l2 in B2.
      rewrite legs_app in B3 by exact LLf. rewrite EL, ER in B3.
      assert (length (lcs ++ rcs) = length (L ++ R)) as Llr by (rewrite !app_length; lia).
      pose proof (diag_blocks_edge Eb) as Hedge.
      rewrite Llr, LL in B3. rewrite LL in B1. rewrite <- C7, <- LC in B2.
      assert (forall q, In q (rep (bqs b1)) -> In q (rep (bqs b2)) -> In q (rep (bqs b))) as Hcommon.
      { intros q Hq1 Hq2. destruct B1 as (_ & _ & _ & _ & _ & _ & S1). destruct B2 as (_ & _ & _ & _ & _ & _ & S2). destruct B3 as (_ & _ & _ & _ & _ & S3 & _).
        destruct (S1 _ Hq1) as [S1a S1b]. destruct (S2 _ Hq2) as [S2a S2b]. rewrite app_length in *.
        destruct (Nat.eq_dec (length L) 0) as [ZL|NL].
        - rewrite (S1a (or_introl ZL)). rewrite Hedge by (left; lia). left. reflexivity.
        - destruct (Nat.eq_dec (length R) 0) as [ZR|NR].
          + rewrite (S2a ltac:(right; lia)). rewrite Hedge by (right; lia). left. reflexivity.
          + destruct (S1b ltac:(lia)) as [X1 _]. destruct (S2b ltac:(lia)) as [_ X2].
            rewrite (row1 E1) in X1. rewrite (col2 E2) in X2. apply S3; [|].
            * rewrite <- app_length, row3. exact X1.
            * rewrite <- app_length, col3. exact X2. }
      destruct (@dot_data l1 l2 (bdata t1) (bdata t2) (ff1 ++ con1) (con2 ++ ff2) L C R b1 b2 b) as (data & Ed & Ld & Hd);
        [rewrite Ll1; exact PF1 | rewrite Ll2; exact PF2 | exact E1 | exact E2 | exact B1 | exact B2 | exact B3 | exact Hcommon |].
      cbv zeta in Ed. rewrite Ed. cbn [rbind]. eexists. split; [reflexivity|].
      set (order := groups_from 0 _ ++ _). set (t := BST data (lcs ++ rcs) (lfs ++ rfs) order).
      assert (elegs t = L ++ R) as Et by (unfold elegs, t; cbn [bcs bfs]; rewrite legs_app by exact LLf; rewrite EL, ER; reflexivity).
      assert (order = groups_from 0 (map (@length nat) (gather [] (bord t1) f1)) ++ groups_from (length (concat (gather [] (bord t1) f1))) (map (@length nat) (gather [] (bord t2) f2))) as Eorder.
      { unfold order. rewrite LL, Lff1. reflexivity. }
      assert (concat order = seq 0 (length (lcs ++ rcs))) as Econ.
      { rewrite Eorder, groups_concat, concat_app, app_length, Llr, app_length, Lff1, Lff2. reflexivity. }
      set (gs1 := map (gather 0 (ldims l1)) (gather [] (bord t1) f1)) in *. set (gs2 := map (gather 0 (ldims l2)) (gather [] (bord t2) f2)) in *.
      assert (ldims L = concat gs1) as EdL.
      { unfold L. rewrite ldims_gather by (rewrite Ll1; exact Hfl1). unfold gs1, ff1. apply gather_concat. }
      assert (ldims R = concat gs2) as EdR.
      { unfold R. rewrite ldims_gather by (rewrite Ll2; exact Hfl2). unfold gs2, ff2. apply gather_concat. }
      assert (map (gather 0 (ldims (L ++ R))) order = gs1 ++ gs2) as Egs.
      { rewrite ldims_app, EdL, EdR, <- concat_app.
        assert (order = groups_from 0 (map (@length nat) gs1) ++ groups_from (length (concat gs1)) (map (@length nat) gs2)) as ->.
        { rewrite Eorder. unfold gs1, gs2. rewrite !map_map. f_equal; [f_equal; apply map_ext; intros; symmetry; apply gather_length|].
          f_equal; [rewrite <- gather_concat; symmetry; apply gather_length | apply map_ext; intros; symmetry; apply gather_length]. }
        apply groups_app. }
      split.
      + unfold wf_bst. rewrite Et. unfold t. cbn [bcs bfs bdata bord]. split; [rewrite !app_length; lia|].
        split; [apply all_ok_app; apply all_ok_gather; [apply wf_ok, W1 | apply wf_ok, W2]|]. split; [exact Ld|].
        split; [rewrite Econ; apply is_perm_seq|]. intros o Ho.
        assert (forall s t f, wf_bst t -> (forall i, In i f -> i < ndim t) -> In o (groups_from s (map (@length nat) (gather [] (bord t) f))) -> o <> []) as Hgo.
        { clear. intros s t f W Hf Ho. apply groups_from_In in Ho. destruct Ho as (n & b & Hn & ->). apply in_map_iff in Hn. destruct Hn as (o & <- & Ho).
          unfold gather in Ho. apply in_map_iff in Ho. destruct Ho as (i & <- & Hi).
          destruct W as (_ & _ & _ & _ & W). specialize (W (nth i (bord t) []) (nth_In _ _ (Hf i Hi))). destruct (nth i (bord t) []); [congruence | discriminate]. }
        rewrite Eorder in Ho. apply in_app_or in Ho. destruct Ho as [Ho|Ho]; eapply Hgo; try exact Ho; try assumption.
        * intros i Hi. apply In_free_axes in Hi. apply Hi.
        * intros i Hi. apply In_free_axes in Hi. apply Hi.
      + split; [rewrite dense_shape, Et; unfold t; cbn [bord]; rewrite Egs; symmetry; exact HDs|].
        intros I HI. rewrite dense_shape, Et in HI. unfold t in HI. cbn [bord] in HI. rewrite Egs in HI.
        rewrite HDe by (rewrite HDs; exact HI). rewrite dense_elt, Et. unfold t. cbn [bord bdata]. rewrite Egs, Econ.
        pose proof HI as HI'. rewrite map_app in HI'. destruct (@valid_app_inv _ _ _ HI') as [V1 V2].
        assert (length (map nprod gs1) = length f1) as Lg1 by (unfold gs1; rewrite !map_length; apply gather_length).
        rewrite Lg1 in V1, V2. pose proof (valid_length V1) as Lv1. rewrite map_length in Lv1.
        rewrite <- (firstn_skipn (length f1) I) at 1. rewrite split_index_app by exact Lv1.
        apply split_index_valid in V1, V2. rewrite <- EdL in V1. rewrite <- EdR in V2.
        rewrite unperm_seq by (rewrite app_length, (valid_length V1), (valid_length V2), !ldims_length, <- app_length; symmetry; exact Llr).
        rewrite Hd by assumption. rewrite !gather_app, !concat_app. rewrite EdC. reflexivity.
  Qed.
End TD.
