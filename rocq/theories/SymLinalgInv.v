(** * SymLinalgInv: inverses, pseudo-inverses and identities *)
From Coq Require Import Permutation List Lia Arith.
From Verif Require Import Prelude Algebra Tensor TensorFacts Res Charge ChargeFacts BlockSparse BlockSpec BstSpec ListFacts BlockFacts BlockReduce BlockMaps BlockTr BlockPart BstFacts BstConv BstDot BstTensordot BstOps SymSvd SymSvdBond SymSvdTensorFacts SymLinalg SymLinalgSpec SymLinalgGrade SymLinalgMat SymLinalgBond SymLinalgFact.
Import ListNotations.
Set Implicit Arguments.
Unset Strict Implicit.

Lemma nth_grid A (f : nat -> nat -> A) c d : forall r s a b, a < r -> b < c -> nth (a * c + b) (flat_map (fun i => map (f i) (seq 0 c)) (seq s r)) d = f (s + a) b.
Proof.
  induction r as [|r IH]; intros s a b Ha Hb; [lia|]. cbn [seq flat_map]. assert (length (map (f s) (seq 0 c)) = c) as E by (rewrite map_length; apply seq_length).
  destruct a as [|a].
  - cbn [Nat.mul Nat.add]. rewrite app_nth1 by (rewrite E; exact Hb). rewrite (@nth_map_lt _ _ _ _ _ _ 0) by (rewrite seq_length; exact Hb). rewrite seq_nth by exact Hb. rewrite Nat.add_0_r. reflexivity.
  - rewrite app_nth2 by (rewrite E; nia). rewrite E. replace (S a * c + b - c) with (a * c + b) by nia. rewrite IH by lia. f_equal. lia.
Qed.
Lemma grid_length A (f : nat -> nat -> A) c r s : length (flat_map (fun i => map (f i) (seq 0 c)) (seq s r)) = r * c.
Proof. revert s. induction r as [|r IH]; intros s; [reflexivity|]. cbn [seq flat_map]. rewrite app_length, IH, map_length, seq_length. reflexivity. Qed.
Lemma mapr_raise A B (f : A -> res B) l x : In x l -> f x = Raise -> (forall y, f y <> Fuel) -> mapr f l = Raise.
Proof.
  induction l as [|y r IH]; intros Hx Hr Hf; [contradiction|]. cbn [mapr]. destruct (f y) eqn:Ey; [|reflexivity | exfalso; apply (Hf y Ey)].
  cbn [rbind]. destruct Hx as [->|Hx]; [congruence|]. rewrite IH by assumption. reflexivity.
Qed.

Section Filled.
  Context {G : chg} {K : csr}.
  Variable m : bst G K.
  Variables o0 o1 : list nat.
  Hypothesis W : wf_bst m.
  Hypothesis Eo : bord m = [o0; o1].
  Variable B : blocks (G := G).
  Hypothesis HB : blocks_ok (elegs m) (o0 ++ o1) (length o0) B.
  Notation qs := (rep (bqs B)).
  Lemma combine_map_In A C (f : G -> A) (g : G -> C) l q : In q l -> In (f q, g q) (combine (map f l) (map g l)).
  Proof. induction l as [|x r IH]; intros H; [contradiction|]; destruct H as [->|H]; [left; reflexivity | right; apply IH, H]. Qed.
  Lemma block_length q : length (block (elegs m) (o0 ++ o1) (length o0) q) = b_rows m q * b_cols m q.
  Proof. rewrite <- (b_entries_length m q), <- (gather_block W Eo q). symmetry. apply map_length. Qed.
  Lemma filled (z : K) (V : G -> list K) : (forall q, In q qs -> length (V q) = b_rows m q * b_cols m q) ->
    exists D, fill z (list_sum (map (fun d => fst d * snd d) (bdims B))) (bmaps B) (map V qs) = Ok D /\
      let T := BST D (bcs m) (bfs m) (bord m) in wf_bst T /\
      graded (m_of T) (legG (axis_legs m 0)) (legG (map flip (axis_legs m 1))) (fun q a b => nth (a * b_cols m q + b) (V q) r0).
  Proof.
    intros HV. pose proof (mo_perm W Eo) as Hp. pose proof (mo_len W Eo) as Hlen.
    pose proof (@blocks_partition G (elegs m) (o0 ++ o1) (length o0) B Hp ltac:(lia) HB) as HP.
    assert (bmaps B = map (block (elegs m) (o0 ++ o1) (length o0)) qs) as EM by apply HB.
    assert (list_sum (map (fun d => fst d * snd d) (bdims B)) = length (allowed (elegs m))) as ES.
    { rewrite <- (seq_length (length (allowed (elegs m))) 0), <- (Permutation_length HP), EM, <- list_sum_lengths, (blocks_dims Eo HB), !map_map. f_equal. apply map_ext. intros q. cbn [fst snd]. symmetry. apply block_length. }
    rewrite ES. destruct (@fill_sound K z (length (allowed (elegs m))) (bmaps B) (map V qs)) as (D & EF & LD & HD).
    - rewrite EM, !map_map. apply map_ext_in. intros q Hq. rewrite block_length. symmetry. apply HV, Hq.
    - exact HP.
    - exists D. split; [exact EF|]. intros T. assert (wf_bst T) as WT.
      { destruct W as (W1 & W2 & W3 & W4 & W5). split; [exact W1|]. split; [exact W2|]. split; [exact LD|]. split; [exact W4 | exact W5]. }
      split; [exact WT|]. pose proof (m_graded WT Eo) as GT. intros i j Hi Hj. change (axis_legs T 0) with (axis_legs m 0) in GT. change (axis_legs T 1) with (axis_legs m 1) in GT. rewrite GT by assumption.
      destruct (qdec _ _) as [E|]; [|reflexivity]. set (q := gch (legG (axis_legs m 0)) i) in *. unfold b_at. f_equal.
      assert (In q qs) as Iq.
      { apply (qs_block W Eo HB). pose proof (proj1 (proj1 (@legG_ok G (axis_legs m 0)) i Hi)) as H1. pose proof (proj1 (proj1 (@legG_ok G (map flip (axis_legs m 1))) j Hj)) as H2. rewrite <- E in H2. fold q in H1.
        cbn [legG gsz] in H1, H2. rewrite sector_flip in H2. unfold has_block, b_rows, b_cols. lia. }
      rewrite <- (gather_block WT Eo q). change (bdata T) with D. change (elegs T) with (elegs m). apply HD. rewrite EM. apply combine_map_In, Iq.
  Qed.
End Filled.

Section Inv.
  Context {G : chg} {K : cjr}.
  Add Ring KringI : (rsr K).
  Variables lim blim junk : nat.
  Hypothesis lim_pos : 0 < lim.
  Variable emp : K.
  Variable m : bst G K.
  Hypothesis W : wf_bst m.
  Hypothesis N2 : ndim m = 2.
  Notation rows := (nprod (ldims (axis_legs m 0))).
  Notation cols := (nprod (ldims (axis_legs m 1))).
  Variable np_inv : nat -> nat -> list K -> res (mat K).

  Lemma inv_run (x : G -> mat K) :
    (forall q, has_block m q -> np_inv (b_rows m q) (b_cols m q) (b_entries m q) = Ok (x q) /\ m_rows (x q) = b_cols m q /\ m_cols (x q) = b_rows m q) ->
    exists X, lin_inv lim blim junk emp np_inv m = Ok X /\ wf_bst X /\ shape (dense_of X) = [cols; rows] /\
      axis_legs X 0 = map flip (axis_legs m 1) /\ axis_legs X 1 = map flip (axis_legs m 0) /\
      graded (m_of X) (legG (map flip (axis_legs m 1))) (legG (axis_legs m 0)) (fun q a b => m_at (x q) a b).
  Proof.
    intros HX. destruct (two_axes N2) as (o0 & o1 & Eo). destruct (mat_blocks_spec blim junk lim_pos W Eo) as (B & EB & HB). set (qs := rep (bqs B)).
    assert (forall q, In q qs -> np_inv (b_rows m q) (b_cols m q) (b_entries m q) = Ok (x q) /\ m_rows (x q) = b_cols m q /\ m_cols (x q) = b_rows m q) as HX' by (intros q Hq; apply HX, (qs_block W Eo HB), Hq).
    unfold lin_inv. rewrite EB. cbn [rbind]. rewrite (block_list_eq W Eo HB). fold qs.
    assert (mapr (fun b => np_inv (fst (fst b)) (snd (fst b)) (snd b)) (map (fun q => (b_rows m q, b_cols m q, b_entries m q)) qs) = Ok (map x qs)) as ->.
    { clear - HX'. induction qs as [|q r IH]; [reflexivity|]. cbn [map mapr fst snd]. rewrite (proj1 (HX' q (or_introl eq_refl))). cbn [rbind]. rewrite IH by (intros; apply HX'; right; assumption). reflexivity. }
    cbn [rbind]. rewrite map_map. destruct (@filled G K m o0 o1 W Eo B HB emp (fun q => ravel_cols (x q))) as (D & EF & WT & GT).
    { intros q Hq. unfold ravel_cols. rewrite grid_length. destruct (HX' q Hq) as (_ & -> & ->). reflexivity. }
    fold qs in EF. rewrite EF. cbn [rbind]. set (T := BST D (bcs m) (bfs m) (bord m)) in *.
    destruct (@bconj_spec G K (fun y => y) T WT eq_refl) as [WY TY]. 
    assert (bconj (fun y => y) T = BST D (bcs m) (map negb (bfs m)) (bord m)) as EY by (unfold bconj; rewrite map_id; reflexivity). rewrite EY in WY, TY. set (Y := BST D (bcs m) (map negb (bfs m)) (bord m)) in *.
    destruct (@btranspose_spec G K Y [1; 0] WY) as (X & EX & WX & D1 & D2 & D3 & D4 & XS & XE).
    { unfold ndim in *. change (bord Y) with (bord m). rewrite N2. apply perm_swap. }
    assert (shape (dense_of T) = [rows; cols]) as ST by apply (mo_shape WT Eo).
    assert (shape (dense_of Y) = [rows; cols]) as SY by (destruct TY as [TY _]; rewrite TY; exact ST).
    assert (shape (dense_of X) = [cols; rows]) as SX by (rewrite XS; unfold transpose; cbn [shape]; rewrite SY; reflexivity).
    exists X. split; [exact EX|]. split; [exact WX|]. split; [exact SX|].
    assert (elegs X = map flip (elegs m)) as EL by (unfold elegs; rewrite D2, D3; apply legs_negb).
    assert (bord X = [o1; o0]) as BX by (rewrite D4; change (bord Y) with (bord m); rewrite Eo; reflexivity).
    assert (forall o, (forall i, In i o -> i < length (elegs m)) -> gather ([], false) (map flip (elegs m)) o = map flip (gather ([], false) (elegs m) o)) as GF.
    { intros o Ho. unfold gather. rewrite map_map. apply map_ext_in. intros i Hi. apply (@nth_map_lt _ _ _ _ _ _ ([], false)), Ho, Hi. }
    pose proof (mo_perm W Eo) as Hp. split; [|split].
    - unfold axis_legs. rewrite EL, BX, Eo. cbn [nth]. apply GF. intros i Hi. apply (is_perm_In i Hp), in_or_app. auto.
    - unfold axis_legs. rewrite EL, BX, Eo. cbn [nth]. apply GF. intros i Hi. apply (is_perm_In i Hp), in_or_app. auto.
    - intros i j Hi Hj. assert (i < cols) as Hi' by (cbn [legG gn] in Hi; rewrite ldims_flip in Hi; exact Hi).
      unfold m_of. rewrite XE by (rewrite SX; constructor; [exact Hi' | constructor; [exact Hj | constructor]]). unfold transpose. cbn [elt]. assert (unperm 0 [1; 0] [i; j] = [j; i]) as -> by reflexivity.
      rewrite (proj2 TY) by (rewrite SY; constructor; [exact Hj | constructor; [exact Hi' | constructor]]). cbn [elt].
      change (elt (dense_of T) [j; i]) with (m_of T j i). rewrite (graded_tr GT) by assumption. destruct (qdec _ _) as [E|]; [|reflexivity].
      set (q := gch (legG (map flip (axis_legs m 1))) i) in *.
      pose proof (proj1 (proj1 (@legG_ok G (map flip (axis_legs m 1))) i Hi)) as H1. pose proof (proj1 (proj1 (@legG_ok G (axis_legs m 0)) j Hj)) as H2. rewrite <- E in H2. fold q in H1, H2.
      cbn [legG gsz] in H1, H2. rewrite sector_flip in H1. change (length (sector (axis_legs m 0) q)) with (b_rows m q) in H2. change (length (sector (axis_legs m 1) (qinv q))) with (b_cols m q) in H1.
      assert (has_block m q) as Hb by (unfold has_block; lia). destruct (HX q Hb) as (_ & R1 & R2). unfold ravel_cols. rewrite R1, R2. apply (@nth_grid K (fun j i => m_at (x q) i j)); assumption.
  Qed.

  Theorem inv_inverse (x : G -> mat K) : (forall q, b_rows m q = b_cols m q) ->
    (forall q, has_block m q -> np_inv (b_rows m q) (b_rows m q) (b_entries m q) = Ok (x q) /\ inv_ok (b_rows m q) (b_entries m q) (x q)) ->
    exists X, lin_inv lim blim junk emp np_inv m = Ok X /\ wf_bst X /\ shape (dense_of X) = [cols; rows] /\
      axis_legs X 0 = map flip (axis_legs m 1) /\ axis_legs X 1 = map flip (axis_legs m 0) /\
      (forall i j, i < rows -> j < rows -> nsum cols (fun l => m_of m i l *! m_of X l j) = delta i j) /\
      (forall i j, i < cols -> j < cols -> nsum rows (fun l => m_of X i l *! m_of m l j) = delta i j).
  Proof.
    intros Hs HX. destruct (two_axes N2) as (o0 & o1 & Eo). destruct (@inv_run x) as (X & EX & WX & SX & A0 & A1 & GX).
    { intros q Hq. rewrite <- Hs. destruct (HX q Hq) as (E & R1 & R2 & _). auto. }
    exists X. split; [exact EX|]. split; [exact WX|]. split; [exact SX|]. split; [exact A0|]. split; [exact A1|].
    pose proof (m_graded W Eo) as GM. pose proof (@legG_ok G (axis_legs m 0)) as O0. pose proof (@legG_ok G (map flip (axis_legs m 1))) as O1.
    assert (forall q a, a < b_rows m q -> has_block m q) as HH by (intros q a Ha; unfold has_block; rewrite <- Hs; lia).
    assert (gn (legG (map flip (axis_legs m 1))) = cols) as GC by (cbn [legG gn]; rewrite ldims_flip; reflexivity). split; intros i j Hi Hj.
    - pose proof (graded_mul O0 O1 O0 GM GX) as GP. pose proof (@graded_diag G K (legG (axis_legs m 0)) (fun _ => r1) O0) as GI. rewrite GC in GP.
      refine (@graded_eq G K _ _ _ _ _ _ i j O0 O0 GP GI _ Hi Hj). intros q a b Ha Hb. cbv beta. cbn [legG gsz] in *. rewrite sector_flip.
      change (length (sector (axis_legs m 1) (qinv q))) with (b_cols m q). change (length (sector (axis_legs m 0) q)) with (b_rows m q) in *.
      rewrite <- Hs. destruct (HX q (HH q a Ha)) as (_ & _ & _ & I1 & _). refine (eq_trans _ (I1 a b Ha Hb)). apply nsum_ext. intros l Hl. unfold b_at. rewrite <- Hs. reflexivity.
    - pose proof (graded_mul O1 O0 O1 GX GM) as GP. pose proof (@graded_diag G K (legG (map flip (axis_legs m 1))) (fun _ => r1) O1) as GI. 
      rewrite <- GC in Hi, Hj. refine (@graded_eq G K _ _ _ _ _ _ i j O1 O1 GP GI _ Hi Hj). intros q a b Ha Hb. cbv beta. cbn [legG gsz] in *. rewrite sector_flip in Ha, Hb.
      change (length (sector (axis_legs m 1) (qinv q))) with (b_cols m q) in *. change (length (sector (axis_legs m 0) q)) with (b_rows m q) in *. rewrite <- Hs in Ha, Hb.
      destruct (HX q (HH q a Ha)) as (_ & _ & _ & _ & I2). refine (eq_trans _ (I2 a b Ha Hb)). apply nsum_ext. intros l Hl. unfold b_at. rewrite <- Hs. reflexivity.
  Qed.

  Theorem inv_raises q : has_block m q -> np_inv (b_rows m q) (b_cols m q) (b_entries m q) = Raise -> (forall r c d, np_inv r c d <> Fuel) ->
    lin_inv lim blim junk emp np_inv m = Raise.
  Proof.
    intros Hq HR HF. destruct (two_axes N2) as (o0 & o1 & Eo). destruct (mat_blocks_spec blim junk lim_pos W Eo) as (B & EB & HB).
    unfold lin_inv. rewrite EB. cbn [rbind]. rewrite (block_list_eq W Eo HB).
    rewrite (@mapr_raise _ _ _ _ (b_rows m q, b_cols m q, b_entries m q)); [reflexivity | | exact HR |].
    - apply (in_map (fun q => (b_rows m q, b_cols m q, b_entries m q))), (qs_block W Eo HB), Hq.
    - intros y. apply HF.
  Qed.

  Theorem pinv_penrose (x : G -> mat K) :
    (forall q, has_block m q -> np_inv (b_rows m q) (b_cols m q) (b_entries m q) = Ok (x q) /\ pinv_ok (b_rows m q) (b_cols m q) (b_entries m q) (x q)) ->
    exists X, lin_inv lim blim junk emp np_inv m = Ok X /\ wf_bst X /\ shape (dense_of X) = [cols; rows] /\
      axis_legs X 0 = map flip (axis_legs m 1) /\ axis_legs X 1 = map flip (axis_legs m 0) /\
      penrose rows cols (m_of m) (m_of X).
  Proof.
    intros HX. destruct (two_axes N2) as (o0 & o1 & Eo). destruct (@inv_run x) as (X & EX & WX & SX & A0 & A1 & GX).
    { intros q Hq. destruct (HX q Hq) as (E & R1 & R2 & _). auto. }
    exists X. split; [exact EX|]. split; [exact WX|]. split; [exact SX|]. split; [exact A0|]. split; [exact A1|].
    pose proof (m_graded W Eo) as GM. pose proof (@legG_ok G (axis_legs m 0)) as O0. pose proof (@legG_ok G (map flip (axis_legs m 1))) as O1.
    assert (gn (legG (map flip (axis_legs m 1))) = cols) as GC by (cbn [legG gn]; rewrite ldims_flip; reflexivity).
    pose proof (graded_mul O0 O1 O0 GM GX) as GAX. pose proof (graded_mul O1 O0 O1 GX GM) as GXA. rewrite GC in GAX.
    assert (forall q, gsz (legG (map flip (axis_legs m 1))) q = b_cols m q) as SC by (intros q; cbn [legG gsz]; rewrite sector_flip; reflexivity).
    assert (forall q a b, a < b_rows m q -> b < b_cols m q -> penrose (b_rows m q) (b_cols m q) (b_at m q) (m_at (x q))) as HP by (intros q a b Ha Hb; apply HX; unfold has_block; lia).
    split; [|split; [|split]]; intros i j Hi Hj.
    - pose proof (graded_mul O0 O0 O1 GAX GM) as GP. rewrite <- GC in Hj. refine (@graded_eq G K _ _ _ _ _ _ i j O0 O1 GP GM _ Hi Hj).
      intros q a b Ha Hb. rewrite SC in *. apply (HP q a b); assumption.
    - pose proof (graded_mul O1 O1 O0 GXA GX) as GP. rewrite GC in GP. rewrite <- GC in Hi. refine (@graded_eq G K _ _ _ _ _ _ i j O1 O0 GP GX _ Hi Hj).
      intros q a b Ha Hb. rewrite SC in *. apply (HP q b a); assumption.
    - pose proof (graded_map (@cj_0 K) (graded_tr GAX)) as GP. refine (@graded_eq G K _ _ _ _ _ _ i j O0 O0 GP GAX _ Hi Hj).
      intros q a b Ha Hb. rewrite SC in *. destruct (Nat.eq_dec (b_cols m q) 0) as [->|Hn]; [apply cj_0|]. apply (HP q a 0); [exact Ha | lia | exact Ha | exact Hb].
    - pose proof (graded_map (@cj_0 K) (graded_tr GXA)) as GP. rewrite <- GC in Hi, Hj. refine (@graded_eq G K _ _ _ _ _ _ i j O1 O1 GP GXA _ Hi Hj).
      intros q a b Ha Hb. rewrite SC in *. cbn [legG gsz]. change (length (sector (axis_legs m 0) q)) with (b_rows m q). destruct (Nat.eq_dec (b_rows m q) 0) as [->|Hn]; [apply cj_0|].
      apply (HP q 0 a); [lia | exact Ha | exact Ha | exact Hb].
  Qed.
End Inv.
