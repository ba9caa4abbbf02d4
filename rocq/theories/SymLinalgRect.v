(** * SymLinalgRect: [diag] of a matrix with arbitrary row and column legs *)
From Coq Require Import Permutation List Lia Arith Sorting.Sorted.
From Verif Require Import Prelude Algebra Tensor TensorFacts Res Charge ChargeFacts BlockSparse BlockSpec BstSpec ListFacts BlockFacts BlockReduce BlockMaps BlockTr BlockPart BstFacts BstConv BstDot BstTensordot BstOps SymSvd SymSvdBond SymSvdTensorFacts SymLinalg SymLinalgSpec SymLinalgGrade SymLinalgMat SymLinalgBond SymLinalgFact SymLinalgInv SymLinalgDiag.
Import ListNotations.
Set Implicit Arguments.
Unset Strict Implicit.

Section Rect.
  Context {G : chg} {K : csr}.
  (** the positions of a group of legs that have charge q, in increasing order *)
  Definition at_charge (ls : list (leg G)) (q : G) : list nat :=
    filter (fun i => if qdec (charge_of ls (unravel (ldims ls) i)) q then true else false) (seq 0 (nprod (ldims ls))).
  (** row i and column j are the a-th row and the a-th column of the block q *)
  Definition block_diagonal (m : bst G K) (i j : nat) : Prop :=
    exists q a, nth_error (at_charge (axis_legs m 0) q) a = Some i /\ nth_error (at_charge (axis_legs m 1) (qinv q)) a = Some j.

  Lemma at_charge_sector (ls : list (leg G)) q : at_charge ls q = map (ravel (ldims ls)) (sector ls q).
  Proof.
    unfold at_charge, sector. rewrite idxs_unravel. rewrite <- (map_id (seq 0 (nprod (ldims ls)))) at 1.
    assert (forall i, In i (seq 0 (nprod (ldims ls))) -> i < nprod (ldims ls)) as H by (intros i Hi; apply in_seq in Hi; lia). revert H.
    induction (seq 0 (nprod (ldims ls))) as [|i r IH]; intros H; [reflexivity|]. cbn [map filter]. rewrite IH by (intros x Hx; apply H; right; exact Hx).
    destruct (qdec _ _); [|reflexivity]. cbn [map]. rewrite ravel_unravel by (apply H; left; reflexivity). reflexivity.
  Qed.
  Lemma at_charge_nth (ls : list (leg G)) q a i : nth_error (at_charge ls q) a = Some i <-> a < length (sector ls q) /\ i = ravel (ldims ls) (nth a (sector ls q) []).
  Proof.
    rewrite at_charge_sector. split.
    - intros E. pose proof (proj1 (nth_error_Some _ _) ltac:(rewrite E; discriminate)) as Ha. rewrite map_length in Ha. split; [exact Ha|].
      apply (nth_error_nth _ _ 0) in E. rewrite <- E. apply nth_map_lt, Ha.
    - intros [Ha ->]. rewrite nth_error_map, (nth_error_nth' _ [] Ha). reflexivity.
  Qed.

  Variables lim blim junk : nat.
  Hypothesis lim_pos : 0 < lim.
  Theorem diagonal_rect (m : bst G K) : wf_bst m -> ndim m = 2 ->
    exists d q ps, lin_diagonal lim blim junk m = Ok d /\ bcs d = [q] /\ bfs d = [false] /\ bord d = [[0]] /\ bc_ok q /\
      NoDup ps /\ (forall i j, In (i, j) ps <-> block_diagonal m i j) /\ bdata d = map (fun p => m_of m (fst p) (snd p)) ps /\
      rep q = map (fun p => charge_of (axis_legs m 0) (unravel (ldims (axis_legs m 0)) (fst p))) ps.
  Proof.
    intros W N2. destruct (two_groups N2) as (o0 & o1 & Eo). destruct (mat_blocks_spec blim junk lim_pos W Eo) as (B & EB & HB).
    unfold mat_blocks in EB. rewrite Eo in EB. unfold lin_diagonal. rewrite Eo. cbn [length Nat.ltb Nat.leb]. rewrite EB. cbn [rbind].
    rewrite (block_list_eq W Eo HB), (blocks_dims Eo HB), !map_map. cbn [fst snd]. set (qs := rep (bqs B)). pose (k := fun x => Nat.min (b_rows m x) (b_cols m x)).
    change (map (fun x => Nat.min (b_rows m x) (b_cols m x)) qs) with (map k qs).
    destruct (bond_charges HB k) as (q & Eb & Hq & Rq). fold qs in Eb. rewrite Eb. cbn [rbind].
    pose proof (@legG_ok G (axis_legs m 0)) as O0. pose proof (@legG_ok G (map flip (axis_legs m 1))) as O1. set (L := axis_legs m 0) in *. set (C := map flip (axis_legs m 1)) in *.
    assert (forall q', gsz (legG C) q' = b_cols m q') as SC by (intros q'; cbn [legG gsz]; unfold C, b_cols; rewrite sector_flip; reflexivity).
    assert (forall q', gsz (legG L) q' = b_rows m q') as SL by reflexivity.
    set (ps := map (fun x => (gemb (legG L) (nth (fst x) qs qid) (snd x), gemb (legG C) (nth (fst x) qs qid) (snd x))) (bonds (map k qs))).
    assert (forall x, In x (bonds (map k qs)) -> fst x < length qs /\ snd x < gsz (legG L) (nth (fst x) qs qid) /\ snd x < gsz (legG C) (nth (fst x) qs qid)) as Hx.
    { intros x Hx. apply In_bonds in Hx as [H1 H2]. rewrite map_length in H1. split; [exact H1|]. rewrite (@nth_map_lt _ _ _ _ _ _ qid) in H2 by exact H1. rewrite SL, SC. unfold k in H2. lia. }
    eexists _, q, ps. split; [reflexivity|]. split; [reflexivity|]. split; [reflexivity|]. split; [reflexivity|]. split; [exact Hq|]. split; [|split; [|split]].
    - apply Prelude.NoDup_map_in; [|apply NoDup_bonds]. intros x y Ix Iy E. injection E as E _. destruct (Hx x Ix) as (X1 & X2 & _). destruct (Hx y Iy) as (Y1 & Y2 & _).
      destruct (proj2 O0 _ _ X2) as (_ & C1 & L1). destruct (proj2 O0 _ _ Y2) as (_ & C2 & L2). cbn [legG gemb] in *. rewrite E in C1, L1. rewrite C2 in C1. rewrite L2 in L1.
      destruct x as [x1 x2], y as [y1 y2]. cbn [fst snd] in *. f_equal; [|congruence]. apply (proj1 (NoDup_nth qs qid) (qs_nodup HB)); congruence.
    - intros i j. unfold ps. rewrite in_map_iff. unfold block_diagonal. split.
      + intros (x & E & Ix). injection E as <- <-. destruct (Hx x Ix) as (X1 & X2 & X3). exists (nth (fst x) qs qid), (snd x). split; apply at_charge_nth.
        * split; [exact X2|reflexivity].
        * rewrite SC in X3. split; [exact X3|]. cbn [legG gemb]. unfold C. rewrite sector_flip, ldims_flip. reflexivity.
      + intros (q' & a & E1 & E2). apply at_charge_nth in E1 as [A1 ->]. apply at_charge_nth in E2 as [A2 ->].
        assert (In q' qs) as Iq by (apply (qs_block W Eo HB); change (b_rows m q' <> 0 /\ b_cols m q' <> 0); change (a < b_rows m q') in A1; change (a < b_cols m q') in A2; lia).
        pose proof (index_of_lt qdec q' qs Iq) as Hlt. exists (index_of qdec q' qs, a). cbn [fst snd]. rewrite nth_index_of by exact Iq. split.
        * cbn [legG gemb]. unfold C. rewrite sector_flip, ldims_flip. reflexivity.
        * apply In_bonds. cbn [fst snd]. rewrite map_length. split; [exact Hlt|]. rewrite (@nth_map_lt _ _ _ _ _ _ qid) by exact Hlt. rewrite nth_index_of by exact Iq.
          change (a < b_rows m q') in A1. change (a < b_cols m q') in A2. unfold k. lia.
    - cbn [bdata]. unfold ps. rewrite map_map. rewrite map_bonds, map_length. rewrite (list_by_index qs qid) at 1. rewrite map_map. f_equal. apply map_ext_in. intros s Hs. apply in_seq in Hs.
      rewrite (@nth_map_lt _ _ _ _ _ _ qid) by lia. apply map_ext_in. intros a Ha. apply in_seq in Ha. cbn [fst snd].
      pose proof (m_graded W Eo) as GM. fold L C in GM. rewrite (graded_at O0 O1 GM) by (rewrite ?SL, ?SC; unfold k in Ha; lia). unfold b_at. reflexivity.
    - rewrite Rq. unfold ps. rewrite map_map. apply map_ext_in. intros x Ix. destruct (Hx x Ix) as (X1 & X2 & _). destruct (proj2 O0 _ _ X2) as (_ & C1 & _). symmetry. exact C1.
  Qed.
End Rect.
