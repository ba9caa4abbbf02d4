(** * SymLinalgTensor: QR and RQ decompositions of symmetric tensors *)
From Coq Require Import Permutation Reals List Lia Arith.
From Verif Require Import Prelude Algebra Tensor TensorFacts Res Charge ChargeFacts BlockSparse BlockSpec BstSpec ListFacts BlockFacts BlockReduce BlockMaps BlockTr BlockPart BstFacts BstConv BstDot BstOps BstTensordot SymSvd SymSvdBond SymSvdSpec SymSvdTensorFacts SymSvdReshape SymLinalg SymLinalgSpec SymLinalgGrade SymLinalgMat SymLinalgBond SymLinalgFact.
Import ListNotations.
Set Implicit Arguments.
Unset Strict Implicit.

Section Block.
  Context {G : chg} {K : csr}.
  Lemma sector_empty (c : list G) (f : bool) q : length c = 0 -> sector [(c, f)] q = [].
  Proof. intros E. apply length_zero_iff_nil in E. subst c. reflexivity. Qed.
  Lemma some_block (m : bst G K) : wf_bst m -> ndim m = 2 -> allowed (elegs m) <> [] -> exists q, has_block m q.
  Proof.
    intros W N2 Ha. unfold ndim in N2. destruct (bord m) as [|o0 [|o1 [|? ?]]] eqn:Eo; try discriminate.
    destruct (allowed (elegs m)) as [|ix r] eqn:Ea; [congruence|]. assert (In ix (allowed (elegs m))) as Hix by (rewrite Ea; left; reflexivity).
    apply In_sector in Hix as [Vx Cx]. pose proof (m_perm W Eo) as Hp.
    assert (length (elegs m) = length (bcs m)) as LE by apply (wf_legs_length W).
    assert (length ix = length (elegs m)) as Lx by (rewrite (valid_length Vx); apply ldims_length).
    set (L := axis_legs m 0). set (C := axis_legs m 1).
    assert (gather ([], false) (elegs m) (o0 ++ o1) = L ++ C) as EL by (unfold L, C, axis_legs; rewrite Eo; cbn [nth]; apply gather_app).
    assert (In (gather 0 ix (o0 ++ o1)) (allowed (L ++ C))) as Hw.
    { rewrite <- EL. apply In_sector. split.
      - rewrite ldims_gather by (intros i Hi; rewrite LE; apply (is_perm_In i Hp), Hi). apply valid_gather; [exact Vx|].
        intros i Hi. rewrite ldims_length, LE. apply (is_perm_In i Hp), Hi.
      - rewrite <- charge_of_unperm; [| rewrite LE; exact Hp | rewrite gather_length, LE; apply (is_perm_length Hp)].
        rewrite unperm_gather by (rewrite Lx, LE; exact Hp). exact Cx. }
    rewrite allowed_app in Hw. apply in_flat_map in Hw as (x & Hr & Hc). apply in_map_iff in Hc as (c & _ & Hc). apply In_idxs in Hr.
    exists (charge_of L x). unfold has_block, b_rows, b_cols. fold L C. rewrite !length_zero_iff_nil. split; intros E.
    - assert (In x (sector L (charge_of L x))) as I by (apply In_sector; auto). rewrite E in I. exact I.
    - rewrite E in Hc. exact Hc.
  Qed.
End Block.

Section Tensor.
  Context {G : chg} {K : cjr}.
  Add Ring KringT : (rsr K).
  Variables lim blim junk : nat.
  Hypothesis lim_pos : 0 < lim.
  Variable np_qr : qr_mode -> nat -> nat -> list K -> mat K * mat K.
  Variable t : bst G K.
  Variable pivot : nat.
  Hypothesis W : wf_bst t.
  Hypothesis Hp : 0 < pivot < length (bshape t).
  Hypothesis Hd : forall d, In d (bshape t) -> 0 < d.
  Hypothesis Hl : nth (pivot - 1) (bshape t) 0 <> 1.
  Hypothesis Ha : allowed (elegs t) <> [].
  Notation left := (firstn pivot (bshape t)).
  Notation right := (skipn pivot (bshape t)).

  Lemma sum_ravel (f : nat -> K) s : nsum (nprod s) f = lsum (idxs s) (fun ix => f (ravel s ix)).
  Proof.
    rewrite <- nsum_unravel. apply nsum_ext. intros k Hk. rewrite ravel_unravel by exact Hk. reflexivity.
  Qed.

  (** back from the factors of the matrix to those of the tensor *)
  Lemma finish (m U V : bst G K) o0 o1 q : breshape t [nprod left; nprod right] = Ok m -> bord m = [o0; o1] -> wf_bst U -> wf_bst V ->
    bcs U = q :: gather (Raw []) (bcs m) o0 -> bfs U = true :: gather false (bfs m) o0 -> bord U = [seq 1 (length o0); [0]] ->
    bcs V = q :: gather (Raw []) (bcs m) o1 -> bfs V = false :: gather false (bfs m) o1 -> bord V = [[0]; seq 1 (length o1)] ->
    shape (dense_of U) = [nprod left; length (rep q)] -> shape (dense_of V) = [length (rep q); nprod right] -> length (rep q) <> 0 ->
    let n := length (rep q) in
    exists U' V', breshape U (left ++ [n]) = Ok U' /\ breshape V (n :: right) = Ok V' /\ new_bond t U' V' q /\
      shape (dense_of U') = left ++ [n] /\ shape (dense_of V') = n :: right /\
      (forall ix b, valid ix left -> b < n -> elt (dense_of U') (ix ++ [b]) = elt (dense_of U) [ravel left ix; b]) /\
      (forall jx b, valid jx right -> b < n -> elt (dense_of V') (b :: jx) = elt (dense_of V) [b; ravel right jx]).
  Proof.
    clear lim_pos. intros Em Eo WU WV U1 U2 U3 V1 V2 V3 SU SV Hn n.
    destruct (as_matrix0 W Em) as (Wm & D1 & D2 & D3 & D4 & D5 & _ & D6).
    assert (length (repeat (IZR 0) n) = n) as Lr by apply repeat_length.
    assert (bond_legs m U V (repeat (IZR 0) n) q) as BL.
    { split; [exact WU|]. split; [exact WV|]. split; [rewrite Lr; reflexivity|]. exists (seq 1 (length o0)), (seq 1 (length o1)), o0, o1.
      rewrite Eo, U3, V3. cbn [concat]. rewrite !app_nil_r. repeat split; assumption. }
    assert (repeat (IZR 0) n <> []) as Nr by (intros E; apply (f_equal (@length R)) in E; rewrite Lr in E; apply Hn, E).
    assert (shape (dense_of U) = [nprod left; length (repeat (IZR 0) n)]) as SU' by (rewrite Lr; exact SU).
    assert (shape (dense_of V) = [length (repeat (IZR 0) n); nprod right]) as SV' by (rewrite Lr; exact SV).
    destruct (@can_reshape G K 1 Nat.lt_0_1 t pivot W Hp Hd Hl m U V o0 o1 _ q Em Eo BL U3 V3 SU' SV' Nr) as (U' & V' & EU & EV).
    destruct (@back G K t pivot m U V (repeat (IZR 0) n) q U' V' D2 D3 D4 BL SU' SV' EU EV) as (P1 & P2 & P3 & P4 & P5).
    rewrite bdim_rep in EU, EV. fold n in EU, EV. rewrite Lr in *. exists U', V'. split; [exact EU|]. split; [exact EV|]. split; [|repeat split; assumption].
    destruct P1 as (WU' & WV' & _ & cl & cr & lft & rgt & B1 & B2 & B3 & B4 & B5 & B6 & B7 & B8 & B9).
    split; [exact WU'|]. split; [exact WV'|]. exists lft, rgt. rewrite B4, B5, B8, B9. repeat split; assumption.
  Qed.

  Lemma matrix_block m : breshape t [nprod left; nprod right] = Ok m -> ndim m = 2 /\ wf_bst m /\ allowed (elegs m) <> [].
  Proof.
    clear lim_pos. intros Em. destruct (as_matrix0 W Em) as (Wm & D1 & D2 & D3 & D4 & D5 & (o0 & o1 & Eo) & D6).
    split; [unfold ndim; rewrite Eo; reflexivity|]. split; [exact Wm|]. unfold elegs. rewrite D2, D3. exact Ha.
  Qed.

  Theorem tensor_qr :
    (forall m, breshape t [nprod left; nprod right] = Ok m -> forall q, has_block m q ->
       qr_ok (Nat.min (b_rows m q) (b_cols m q)) (b_rows m q) (b_cols m q) (b_entries m q) (np_qr Reduced (b_rows m q) (b_cols m q) (b_entries m q))) ->
    exists Q R c, let n := length (rep c) in sym_qr lim blim junk np_qr t pivot = Ok (Q, R) /\ new_bond t Q R c /\
      shape (dense_of Q) = left ++ [n] /\ shape (dense_of R) = n :: right /\
      (forall ix jx, valid ix left -> valid jx right -> nsum n (fun b => elt (dense_of Q) (ix ++ [b]) *! elt (dense_of R) (b :: jx)) = elt (dense_of t) (ix ++ jx)) /\
      (forall a b, a < n -> b < n -> lsum (idxs left) (fun ix => cj (elt (dense_of Q) (ix ++ [a])) *! elt (dense_of Q) (ix ++ [b])) = delta a b).
  Proof.
    intros HC. destruct (can_matrix Nat.lt_0_1 W Hp Hd Hl) as [m Em]. specialize (HC m Em).
    destruct (as_matrix0 W Em) as (Wm & D1 & D2 & D3 & D4 & D5 & (o0 & o1 & Eo) & D6).
    destruct (matrix_block Em) as (N2 & _ & Am).
    destruct (@qr_factors G K lim blim junk lim_pos m Wm np_qr Reduced N2 ltac:(discriminate) HC)
      as (Q & R & n & ER & WQ & WR & SQ & SR & AQ0 & AR1 & AQ1 & CQR & B1 & B2 & FA & FO & c & Lc & X1 & X2 & X3 & X4 & X5 & X6).
    rewrite Eo in X1, X2, X3, X4, X5, X6. cbn [nth] in *.
    assert (nprod (ldims (axis_legs m 0)) = nprod left /\ nprod (ldims (axis_legs m 1)) = nprod right) as [Er Ec].
    { rewrite (wf_shape Wm), (mo_shape Wm Eo) in D5. injection D5. auto. }
    rewrite Er, Ec in *. subst n. set (n := length (rep c)) in *.
    assert (n <> 0) as Hn.
    { destruct (some_block Wm N2 Am) as [q Hq]. pose proof (B1 q Hq) as Bq. cbn [qr_size] in Bq. destruct Hq as [Hr Hc'].
      intros Z. rewrite Z in SR. assert (b_rows R q <> 0) as Z' by lia. unfold b_rows, axis_legs in Z'. rewrite X6 in Z'. cbn [nth] in Z'.
      assert (gather ([], false) (elegs R) [0] = [(rep c, false)]) as Eg by (unfold elegs; rewrite X4, X5; reflexivity).
      rewrite Eg, sector_empty in Z' by exact Z. apply Z'. reflexivity. }
    destruct (@finish m Q R o0 o1 c Em Eo WQ WR X1 X2 X3 X4 X5 X6 SQ SR Hn) as (Q' & R' & EQ' & ER' & NB & S1 & S2 & P1 & P2).
    exists Q', R', c. cbv zeta. fold n in EQ', ER', S1, S2, P1, P2 |- *. split; [|split; [exact NB|]; split; [exact S1|]; split; [exact S2|]; split].
    - unfold sym_qr. rewrite Em. cbn [rbind]. rewrite ER. cbn [rbind fst snd]. rewrite (wf_shape WQ), SQ. cbn [nth]. rewrite EQ'. cbn [rbind]. rewrite ER'. reflexivity.
    - intros ix jx Vi Vj. rewrite <- D6 by assumption. change (elt (dense_of m) [ravel left ix; ravel right jx]) with (m_of m (ravel left ix) (ravel right jx)).
      rewrite <- FA by (apply ravel_lt; assumption). apply nsum_ext. intros b Hb. rewrite P1, P2 by assumption. reflexivity.
    - intros a b Hx Hb. rewrite <- (FO a b Hx Hb), sum_ravel. apply lsum_ext. intros ix Hix. apply In_idxs in Hix. rewrite !P1 by assumption. reflexivity.
  Qed.

  Lemma swap_spec (m : bst G K) o0 o1 : wf_bst m -> bord m = [o0; o1] ->
    exists u, btranspose m [1; 0] = Ok u /\ let v := bconj cj u in wf_bst v /\ bcs v = bcs m /\ bfs v = map negb (bfs m) /\ bord v = [o1; o0] /\
      shape (dense_of v) = gather 0 (shape (dense_of m)) [1; 0] /\
      (forall i j, i < nth 1 (shape (dense_of m)) 0 -> j < nth 0 (shape (dense_of m)) 0 -> m_of v i j = cj (m_of m j i)) /\
      axis_legs v 0 = map flip (axis_legs m 1) /\ axis_legs v 1 = map flip (axis_legs m 0) /\ elegs v = map flip (elegs m).
  Proof.
    clear lim_pos Ha Hl Hd Hp W. intros Wm Eo. destruct (@btranspose_spec G K m [1; 0] Wm) as (u & Eu & Wu & U1 & U2 & U3 & U4 & US & UE).
    { unfold ndim. rewrite Eo. cbn. apply perm_swap. }
    exists u. split; [exact Eu|]. intros v. destruct (@bconj_spec G K cj u Wu (cj_0 K)) as (Wv & VS & VE).
    rewrite Eo in U4. cbn [gather map nth] in U4.
    assert (elegs v = map flip (elegs m)) as El.
    { unfold v, elegs. cbn [bconj bcs bfs]. rewrite U2, U3. apply legs_negb. }
    assert (forall o, (forall i, In i o -> In i (o0 ++ o1)) -> gather ([], false) (map flip (elegs m)) o = map flip (gather ([], false) (elegs m) o)) as Gf.
    { intros o Ho. unfold gather. rewrite map_map. apply map_ext_in. intros i Hi. apply nth_map_lt. rewrite (wf_legs_length Wm). apply (is_perm_In i (m_perm Wm Eo)), Ho, Hi. }
    split; [exact Wv|]. split; [exact U2|]. split; [cbn; rewrite U3; reflexivity|]. split; [exact U4|].
    assert (shape (dense_of v) = gather 0 (shape (dense_of m)) [1; 0]) as SV by (unfold v; rewrite VS; cbn [shape]; rewrite US; reflexivity).
    split; [exact SV|]. split; [|split; [|split; [|exact El]]].
    - intros i j Hi Hj. unfold m_of. rewrite VE by (fold v; rewrite SV; cbn; repeat constructor; assumption). cbn [elt]. f_equal.
      rewrite UE by (rewrite US; cbn; repeat constructor; assumption). reflexivity.
    - unfold axis_legs. rewrite El. change (bord v) with (bord u). rewrite U4, Eo. cbn [nth]. apply Gf. intros i Hi. apply in_or_app. auto.
    - unfold axis_legs. rewrite El. change (bord v) with (bord u). rewrite U4, Eo. cbn [nth]. apply Gf. intros i Hi. apply in_or_app. auto.
  Qed.

  Theorem tensor_rq :
    (forall m u, breshape t [nprod left; nprod right] = Ok m -> btranspose m [1; 0] = Ok u -> let v := bconj cj u in forall q, has_block v q ->
       qr_ok (Nat.min (b_rows v q) (b_cols v q)) (b_rows v q) (b_cols v q) (b_entries v q) (np_qr Reduced (b_rows v q) (b_cols v q) (b_entries v q))) ->
    exists R Q c, let n := length (rep c) in sym_rq lim blim junk np_qr cj t pivot = Ok (R, Q) /\ new_bond t R Q c /\
      shape (dense_of R) = left ++ [n] /\ shape (dense_of Q) = n :: right /\
      (forall ix jx, valid ix left -> valid jx right -> nsum n (fun b => elt (dense_of R) (ix ++ [b]) *! elt (dense_of Q) (b :: jx)) = elt (dense_of t) (ix ++ jx)) /\
      (forall a b, a < n -> b < n -> lsum (idxs right) (fun jx => elt (dense_of Q) (a :: jx) *! cj (elt (dense_of Q) (b :: jx))) = delta a b).
  Proof.
    intros HC. destruct (can_matrix Nat.lt_0_1 W Hp Hd Hl) as [m Em].
    destruct (as_matrix0 W Em) as (Wm & D1 & D2 & D3 & D4 & D5 & (o0 & o1 & Eo) & D6).
    destruct (matrix_block Em) as (N2 & _ & Am).
    destruct (swap_spec Wm Eo) as (u & Eu & Wv & V1 & V2 & V3 & V4 & V5 & V6 & V7 & V8).
    specialize (HC m u Em Eu). cbv zeta in HC. set (v := bconj cj u) in *.
    assert (ndim v = 2) as N2v by (unfold ndim; rewrite V3; reflexivity).
    destruct (@qr_factors G K lim blim junk lim_pos v Wv np_qr Reduced N2v ltac:(discriminate) HC)
      as (Q & R & n & ER & WQ & WR & SQ & SR & AQ0 & AR1 & AQ1 & CQR & B1 & B2 & FA & FO & c & Lc & X1 & X2 & X3 & X4 & X5 & X6).
    rewrite V3 in X1, X2, X3, X4, X5, X6. cbn [nth] in *. subst n. set (n := length (rep c)) in *.
    assert (shape (dense_of m) = [nprod left; nprod right]) as Sm by (rewrite <- (wf_shape Wm); exact D5).
    rewrite V6, V7, !ldims_flip in *.
    assert (nprod (ldims (axis_legs m 0)) = nprod left /\ nprod (ldims (axis_legs m 1)) = nprod right) as [Er Ec].
    { rewrite (mo_shape Wm Eo) in Sm. injection Sm. auto. }
    rewrite Er, Ec in *. rewrite Sm in V5. cbn [nth] in V5.
    assert (allowed (elegs v) <> []) as Av.
    { rewrite V8. unfold allowed. rewrite sector_flip, qinv_id. exact Am. }
    assert (n <> 0) as Hn.
    { destruct (some_block Wv N2v Av) as [q Hq]. pose proof (B1 q Hq) as Bq. cbn [qr_size] in Bq. destruct Hq as [Hr Hc'].
      intros Z. assert (b_rows R q <> 0) as Z' by lia. unfold b_rows, axis_legs in Z'. rewrite X6 in Z'. cbn [nth] in Z'.
      assert (gather ([], false) (elegs R) [0] = [(rep c, false)]) as Eg by (unfold elegs; rewrite X4, X5; reflexivity).
      rewrite Eg, sector_empty in Z' by exact Z. apply Z'. reflexivity. }
    destruct (swap_spec WR X6) as (rt & Ert & WRt & R1 & R2 & R3 & R4 & R5 & _ & _ & _).
    destruct (swap_spec WQ X3) as (qt & Eqt & WQt & Q1 & Q2 & Q3 & Q4 & Q5 & _ & _ & _).
    rewrite SR in R4, R5. rewrite SQ in Q4, Q5. cbn [gather map nth] in R4, R5, Q4, Q5.
    assert (forall l, map negb (map negb l) = l) as NN by (intros l; rewrite map_map; transitivity (map (fun b : bool => b) l); [apply map_ext; intros []; reflexivity | apply map_id]).
    assert (forall o, (forall i, In i o -> In i (o0 ++ o1)) -> map negb (gather false (map negb (bfs m)) o) = gather false (bfs m) o) as GN.
    { intros o Ho. unfold gather. rewrite map_map. apply map_ext_in. intros i Hi. assert (i < length (bfs m)) as Li.
      { assert (length (bfs m) = length (bcs m)) as -> by (symmetry; apply Wm). apply (is_perm_In i (m_perm Wm Eo)), Ho, Hi. }
      rewrite (@nth_map_lt _ _ negb _ _ _ false) by exact Li. apply Bool.negb_involutive. }
    assert (bcs (bconj cj rt) = c :: gather (Raw []) (bcs m) o0) as Y1 by (rewrite R1, X4, V1; reflexivity).
    assert (bfs (bconj cj rt) = true :: gather false (bfs m) o0) as Y2.
    { rewrite R2, X5, V2. cbn [map negb]. f_equal. apply GN. intros i Hi. apply in_or_app; auto. }
    assert (bcs (bconj cj qt) = c :: gather (Raw []) (bcs m) o1) as Y4 by (rewrite Q1, X1, V1; reflexivity).
    assert (bfs (bconj cj qt) = false :: gather false (bfs m) o1) as Y5.
    { rewrite Q2, X2, V2. cbn [map negb]. f_equal. apply GN. intros i Hi. apply in_or_app; auto. }
    destruct (@finish m (bconj cj rt) (bconj cj qt) o0 o1 c Em Eo WRt WQt Y1 Y2 R3 Y4 Y5 Q3 R4 Q4 Hn) as (R' & Q' & ER' & EQ' & NB & S1 & S2 & P1 & P2).
    exists R', Q', c. cbv zeta. fold n in EQ', ER', S1, S2, P1, P2 |- *. split; [|split; [exact NB|]; split; [exact S1|]; split; [exact S2|]; split].
    - unfold sym_rq. rewrite Em. cbn [rbind]. rewrite Eu. cbn [rbind]. fold v. rewrite ER. cbn [rbind fst snd]. rewrite Ert. cbn [rbind]. rewrite Eqt. cbn [rbind].
      rewrite (wf_shape WRt), R4. cbn [nth]. fold n. rewrite ER'. cbn [rbind]. rewrite EQ'. reflexivity.
    - intros ix jx Vi Vj. rewrite <- D6 by assumption. change (elt (dense_of m) [ravel left ix; ravel right jx]) with (m_of m (ravel left ix) (ravel right jx)).
      pose proof (ravel_lt Vi) as Li. pose proof (ravel_lt Vj) as Lj.
      rewrite <- (@cj_inv K (m_of m _ _)), <- V5 by assumption. rewrite <- FA by assumption. unfold nsum. rewrite cj_lsum. apply lsum_ext. intros b Hb. apply in_seq in Hb.
      rewrite P1, P2 by (assumption || lia).
      change (m_of (bconj cj rt) (ravel left ix) b *! m_of (bconj cj qt) b (ravel right jx) = cj (m_of Q (ravel right jx) b *! m_of R b (ravel left ix))).
      rewrite R5, Q5 by (assumption || lia). rewrite cj_mul. ring.
    - intros a b Hx Hb. rewrite <- (FO a b Hx Hb), sum_ravel. apply lsum_ext. intros jx Hjx. apply In_idxs in Hjx. rewrite !P2 by assumption.
      change (m_of (bconj cj qt) a (ravel right jx) *! cj (m_of (bconj cj qt) b (ravel right jx)) = cj (m_of Q (ravel right jx) a) *! m_of Q (ravel right jx) b).
      rewrite !Q5 by (try apply ravel_lt; assumption). rewrite cj_inv. reflexivity.
  Qed.
End Tensor.
