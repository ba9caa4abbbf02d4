(** * SymLinalgFact: QR and eigenvalue decompositions of symmetric matrices *)
From Coq Require Import Permutation List Lia Arith.
From Verif Require Import Prelude Algebra Tensor TensorFacts Res Charge ChargeFacts BlockSparse BlockSpec BstSpec ListFacts BlockFacts BlockReduce BlockMaps BlockTr BlockPart BstFacts BstConv BstDot BstTensordot SymSvd SymSvdBond SymSvdTensorFacts SymLinalg SymLinalgSpec SymLinalgGrade SymLinalgMat SymLinalgBond.
Import ListNotations.
Set Implicit Arguments.
Unset Strict Implicit.

Lemma charge_equal_refl (G : chg) (c : bc G) : charge_equal c c = true.
Proof. apply charge_equal_complete; [reflexivity|]. intros u l u' l' E1 E2. rewrite E1 in E2. injection E2. auto. Qed.
Lemma mapr_ok A B (f : A -> res B) (g : A -> B) l : (forall x, In x l -> f x = Ok (g x)) -> mapr f l = Ok (map g l).
Proof.
  induction l as [|x r IH]; intros H; [reflexivity|]. cbn [mapr map]. rewrite (H x) by (left; reflexivity). cbn [rbind]. rewrite IH by (intros; apply H; right; assumption). reflexivity.
Qed.

Section TwoAxes.
  Context {K : csr}.
  Lemma tensordot_matmul (a b : tensor K) r n c : shape a = [r; n] -> shape b = [n; c] ->
    shape (tensordot a b [1] [0]) = [r; c] /\ forall i j, elt (tensordot a b [1] [0]) [i; j] = nsum n (fun l => elt a [i; l] *! elt b [l; j]).
  Proof.
    intros Ea Eb. unfold tensordot, rank. rewrite Ea, Eb. cbn. split; [reflexivity|]. intros i j.
    rewrite <- (Nat.mul_1_r n) at 1. rewrite flat_map_concat_map. cbn [map]. rewrite Nat.mul_1_r, concat_single. apply (lsum_map (fun l => [l]) (seq 0 n) (fun x => elt a [i; nth 0 x 0] *! elt b [nth 0 x 0; j])).
  Qed.
End TwoAxes.

Section Fact.
  Context {G : chg} {K : cjr}.
  Add Ring KringF : (rsr K).
  Variables lim blim junk : nat.
  Hypothesis lim_pos : 0 < lim.
  Variable m : bst G K.
  Hypothesis W : wf_bst m.
  Notation rows := (nprod (ldims (axis_legs m 0))).
  Notation cols := (nprod (ldims (axis_legs m 1))).

  Lemma two_axes : ndim m = 2 -> exists o0 o1, bord m = [o0; o1].
  Proof. unfold ndim. destruct (bord m) as [|o0 [|o1 [|? ?]]]; try discriminate. eauto. Qed.
  Lemma has_block_dec q : {has_block m q} + {~ has_block m q}.
  Proof. unfold has_block. destruct (Nat.eq_dec (b_rows m q) 0), (Nat.eq_dec (b_cols m q) 0); [right|right|right|left]; lia. Qed.

  (** *** QR *)
  Section Qr.
    Variable np_qr : qr_mode -> nat -> nat -> list K -> mat K * mat K.
    Variable mode : qr_mode.
    Definition out_qr (q : G) := np_qr mode (b_rows m q) (b_cols m q) (b_entries m q).
    Theorem qr_factors : ndim m = 2 -> mode <> OnlyR ->
      (forall q, has_block m q -> qr_ok (qr_size mode (b_rows m q) (b_cols m q)) (b_rows m q) (b_cols m q) (b_entries m q) (np_qr mode (b_rows m q) (b_cols m q) (b_entries m q))) ->
      exists Q R n, lin_qr lim blim junk np_qr m mode = Ok (Some Q, R) /\ wf_bst Q /\ wf_bst R /\
        shape (dense_of Q) = [rows; n] /\ shape (dense_of R) = [n; cols] /\
        axis_legs Q 0 = axis_legs m 0 /\ axis_legs R 1 = axis_legs m 1 /\ axis_legs Q 1 = map flip (axis_legs R 0) /\ compatible Q R [1] [0] /\
        (forall q, has_block m q -> b_rows R q = qr_size mode (b_rows m q) (b_cols m q)) /\ (forall q, ~ has_block m q -> b_rows R q = 0) /\
        (forall i j, i < rows -> j < cols -> nsum n (fun l => m_of Q i l *! m_of R l j) = m_of m i j) /\
        (forall a b, a < n -> b < n -> nsum rows (fun i => cj (m_of Q i a) *! m_of Q i b) = delta a b) /\
        exists q, let o0 := nth 0 (bord m) [] in let o1 := nth 1 (bord m) [] in length (rep q) = n /\
          bcs Q = q :: gather (Raw []) (bcs m) o0 /\ bfs Q = true :: gather false (bfs m) o0 /\ bord Q = [seq 1 (length o0); [0]] /\
          bcs R = q :: gather (Raw []) (bcs m) o1 /\ bfs R = false :: gather false (bfs m) o1 /\ bord R = [[0]; seq 1 (length o1)].
    Proof.
      intros N2 NM HC. destruct (two_axes N2) as (o0 & o1 & Eo). destruct (mat_blocks_spec blim junk lim_pos W Eo) as (B & EB & HB).
      set (k := fun q => qr_size mode (b_rows m q) (b_cols m q)). set (qs := rep (bqs B)).
      assert (forall q, In q qs -> qr_ok (k q) (b_rows m q) (b_cols m q) (b_entries m q) (out_qr q)) as HC' by (intros q Hq; apply HC, (qs_block W Eo HB), Hq).
      assert (forall q, In q qs -> m_cols (fst (out_qr q)) = k q /\ m_rows (fst (out_qr q)) = b_rows m q /\ m_rows (snd (out_qr q)) = k q /\ m_cols (snd (out_qr q)) = b_cols m q) as HS.
      { intros q Hq. specialize (HC' q Hq). unfold qr_ok in HC'. destruct (out_qr q). cbn [fst snd]. intuition. }
      unfold lin_qr. rewrite Eo, EB. cbn [rbind]. rewrite (block_list_eq W Eo HB). rewrite !map_map. cbn [fst snd]. fold qs.
      change (fun x => m_rows (snd (np_qr mode (b_rows m x) (b_cols m x) (b_entries m x)))) with (fun x => m_rows (snd (out_qr x))).
      change (fun x => m_cols (fst (np_qr mode (b_rows m x) (b_cols m x) (b_entries m x)))) with (fun x => m_cols (fst (out_qr x))).
      change (fun x => ravel_rows (snd (np_qr mode (b_rows m x) (b_cols m x) (b_entries m x)))) with (fun x => ravel_rows (snd (out_qr x))).
      change (fun x => ravel_cols (fst (np_qr mode (b_rows m x) (b_cols m x) (b_entries m x)))) with (fun x => ravel_cols (fst (out_qr x))).
      assert (map (fun x => m_rows (snd (out_qr x))) qs = map k qs) as -> by (apply map_ext_in; intros q Hq; apply HS, Hq).
      assert (map (fun x => m_cols (fst (out_qr x))) qs = map k qs) as -> by (apply map_ext_in; intros q Hq; apply HS, Hq).
      destruct (bond_charges HB k) as (q & Eb & Hq & Rq). fold qs in Eb. rewrite Eb. cbn [rbind].
      assert (o0 = nth 0 (bord m) [] /\ o1 = nth 1 (bord m) []) as [E0 E1] by (rewrite Eo; auto).
      assert (concat (map (fun x => ravel_rows (snd (out_qr x))) qs) = bond_data qs (map k qs) false (axis_legs m 1) (fun y i => m_at (snd (out_qr (nth (fst y) qs qid))) (snd y) i)) as DR.
      { rewrite <- (map_map (fun x => snd (out_qr x)) (@ravel_rows K)). apply (@rows_data G qs k K (fun x => snd (out_qr x)) false); intros x Hx; apply HS, Hx. }
      assert (concat (map (fun x => ravel_cols (fst (out_qr x))) qs) = bond_data qs (map k qs) true (axis_legs m 0) (fun y i => m_at (fst (out_qr (nth (fst y) qs qid))) i (snd y))) as DQ.
      { rewrite <- (map_map (fun x => fst (out_qr x)) (@ravel_cols K)). apply (@cols_data G qs k K (fun x => fst (out_qr x)) true); intros x Hx; apply HS, Hx. }
      destruct (@bond_first_spec G K m o0 o1 W Eo B k q Hq Rq 1 o1 false (fun x a b => m_at (snd (out_qr x)) a b) _ E1 ltac:(lia) DR) as (WR & SR & GR).
      destruct (@axis_legs_first G K m o0 o1 W Eo q false (concat (map (fun x => ravel_rows (snd (out_qr x))) qs)) o1 1 E1 ltac:(lia)) as (AR0 & AR1 & _).
      destruct (@bond_last_spec G K m o0 o1 W Eo B k q Hq Rq 0 o0 true (fun x b a => m_at (fst (out_qr x)) a b) _ E0 ltac:(lia) DQ) as (Q & EQ & WQ & SQ & CQ & FQ & OQ & AQ0 & AQ1 & GQ).
      fold qs in SR, GR, SQ, GQ. set (R := bond_first q false (concat (map (fun x => ravel_rows (snd (out_qr x))) qs)) m o1) in *.
      exists Q, R, (gn (bondG qs k)). pose proof (@bondG_ok G qs k (qs_nodup HB)) as OB. pose proof (@legG_ok G (axis_legs m 0)) as O0. pose proof (@legG_ok G (map flip (axis_legs m 1))) as O1.
      split; [destruct mode; try congruence; cbn [rbind]; rewrite EQ; reflexivity|]. split; [exact WQ|]. split; [exact WR|]. split; [exact SQ|]. split; [exact SR|]. split; [exact AQ0|]. split; [exact AR1|].
      split; [rewrite AQ1, AR0; reflexivity|]. split; [|split; [|split; [|split; [|split]]]].
      - split; [reflexivity|]. split; [repeat constructor; auto|]. split; [repeat constructor; auto|]. split; [intros i [<-|[]]; unfold ndim; rewrite OQ; cbn; lia|]. split; [intros i [<-|[]]; unfold ndim, R; cbn; lia|].
        split; [rewrite (wf_shape WQ), (wf_shape WR), SQ, SR; reflexivity|]. unfold con_legs. rewrite OQ, CQ, FQ. unfold R. cbn. rewrite charge_equal_refl. auto.
      - intros q' H. apply (qs_block W Eo HB) in H. unfold b_rows at 1. rewrite AR0, (bond_sector HB Rq). fold qs. destruct (in_dec qdec q' qs); [reflexivity | contradiction].
      - intros q' H. unfold b_rows at 1. rewrite AR0, (bond_sector HB Rq). destruct (in_dec qdec q' (rep (bqs B))) as [I|]; [|reflexivity]. exfalso. apply H, (qs_block W Eo HB), I.
      - intros i j Hi Hj. cbn [map] in GR. pose proof (graded_mul O0 OB O1 GQ GR) as GP. pose proof (m_graded W Eo) as GM.
        assert (j < gn (legG (map flip (axis_legs m 1)))) as Hj' by (cbn [legG gn]; rewrite ldims_flip; exact Hj).
        refine (@graded_eq G K _ _ _ _ _ _ i j O0 O1 GP GM _ Hi Hj').
        intros q' a b Ha Hb. cbn [legG gsz] in Ha, Hb. rewrite sector_flip in Hb. cbv beta.
        assert (In q' qs) as I by (apply (qs_block W Eo HB); unfold has_block, b_rows, b_cols; lia).
        rewrite (bondG_in k I). specialize (HC' q' I). unfold qr_ok in HC'. destruct (out_qr q') as [u r]. cbn [fst snd]. apply HC'; assumption.
      - intros a b Ha Hb. pose proof (graded_map (@cj_0 K) (graded_tr GQ)) as GQ'. pose proof (graded_mul OB O0 OB GQ' GQ) as GP. pose proof (@graded_diag G K (bondG qs k) (fun _ => r1) OB) as GI.
        refine (@graded_eq G K _ _ _ _ _ _ a b OB OB GP GI _ Ha Hb).
        intros q' x y Hx Hy. cbv beta. destruct (in_dec qdec q' qs) as [I|I]; [|rewrite (bondG_notin k I) in Hx; lia]. rewrite (bondG_in k I) in Hx, Hy.
        specialize (HC' q' I). unfold qr_ok in HC'. cbn [legG gsz]. change (length (sector (axis_legs m 0) q')) with (b_rows m q'). destruct (out_qr q') as [u r]. cbn [fst snd]. apply HC'; assumption.
      - exists q. cbv zeta. cbn [nth]. split; [rewrite Rq, map_length; reflexivity|]. repeat split; assumption.
    Qed.
    Theorem qr_r_only : ndim m = 2 ->
      (forall q, has_block m q -> qr_r_ok (b_rows m q) (b_cols m q) (b_entries m q) (snd (np_qr OnlyR (b_rows m q) (b_cols m q) (b_entries m q)))) ->
      exists R n, lin_qr lim blim junk np_qr m OnlyR = Ok (None, R) /\ wf_bst R /\ shape (dense_of R) = [n; cols] /\ axis_legs R 1 = axis_legs m 1 /\
        (forall q, has_block m q -> b_rows R q = Nat.min (b_rows m q) (b_cols m q)) /\ (forall q, ~ has_block m q -> b_rows R q = 0) /\
        (forall i j, i < cols -> j < cols -> nsum n (fun l => cj (m_of R l i) *! m_of R l j) = nsum rows (fun l => cj (m_of m l i) *! m_of m l j)).
    Proof.
      intros N2 HC. destruct (two_axes N2) as (o0 & o1 & Eo). destruct (mat_blocks_spec blim junk lim_pos W Eo) as (B & EB & HB).
      set (k := fun q => Nat.min (b_rows m q) (b_cols m q)). set (qs := rep (bqs B)). set (h := fun q => snd (np_qr OnlyR (b_rows m q) (b_cols m q) (b_entries m q))).
      assert (forall q, In q qs -> qr_r_ok (b_rows m q) (b_cols m q) (b_entries m q) (h q)) as HC' by (intros q Hq; apply HC, (qs_block W Eo HB), Hq).
      unfold lin_qr. rewrite Eo, EB. cbn [rbind]. rewrite (block_list_eq W Eo HB). rewrite !map_map. cbn [fst snd]. fold qs.
      change (fun x => m_rows (snd (np_qr OnlyR (b_rows m x) (b_cols m x) (b_entries m x)))) with (fun x => m_rows (h x)).
      change (fun x => ravel_rows (snd (np_qr OnlyR (b_rows m x) (b_cols m x) (b_entries m x)))) with (fun x => ravel_rows (h x)).
      assert (map (fun x => m_rows (h x)) qs = map k qs) as -> by (apply map_ext_in; intros q Hq; apply (HC' q Hq)).
      destruct (bond_charges HB k) as (q & Eb & Hq & Rq). fold qs in Eb. rewrite Eb. cbn [rbind].
      assert (o1 = nth 1 (bord m) []) as E1 by (rewrite Eo; auto).
      assert (concat (map (fun x => ravel_rows (h x)) qs) = bond_data qs (map k qs) false (axis_legs m 1) (fun y i => m_at (h (nth (fst y) qs qid)) (snd y) i)) as DR.
      { rewrite <- (map_map h (@ravel_rows K)). apply (@rows_data G qs k K h false); intros x Hx; apply (HC' x Hx). }
      destruct (@bond_first_spec G K m o0 o1 W Eo B k q Hq Rq 1 o1 false (fun x a b => m_at (h x) a b) _ E1 ltac:(lia) DR) as (WR & SR & GR).
      destruct (@axis_legs_first G K m o0 o1 W Eo q false (concat (map (fun x => ravel_rows (h x)) qs)) o1 1 E1 ltac:(lia)) as (AR0 & AR1 & _).
      fold qs in SR, GR. set (R := bond_first q false (concat (map (fun x => ravel_rows (h x)) qs)) m o1) in *.
      exists R, (gn (bondG qs k)). pose proof (@bondG_ok G qs k (qs_nodup HB)) as OB. pose proof (@legG_ok G (axis_legs m 0)) as O0. pose proof (@legG_ok G (map flip (axis_legs m 1))) as O1.
      split; [reflexivity|]. split; [exact WR|]. split; [exact SR|]. split; [exact AR1|]. split; [|split].
      - intros q' H. apply (qs_block W Eo HB) in H. unfold b_rows at 1. rewrite AR0, (bond_sector HB Rq). fold qs. destruct (in_dec qdec q' qs); [reflexivity | contradiction].
      - intros q' H. unfold b_rows at 1. rewrite AR0, (bond_sector HB Rq). destruct (in_dec qdec q' (rep (bqs B))) as [I|]; [|reflexivity]. exfalso. apply H, (qs_block W Eo HB), I.
      - intros i j Hi Hj. pose proof (graded_mul O1 OB O1 (graded_map (@cj_0 K) (graded_tr GR)) GR) as GP. pose proof (m_graded W Eo) as GM.
        pose proof (graded_mul O1 O0 O1 (graded_map (@cj_0 K) (graded_tr GM)) GM) as GP'.
        assert (forall j, j < cols -> j < gn (legG (map flip (axis_legs m 1)))) as Hc by (intros; cbn [legG gn]; rewrite ldims_flip; assumption).
        refine (@graded_eq G K _ _ _ _ _ _ i j O1 O1 GP GP' _ (Hc i Hi) (Hc j Hj)).
        intros q' a b Ha Hb. cbn [legG gsz] in Ha, Hb. rewrite sector_flip in Ha, Hb. cbv beta. cbn [legG gsz]. change (length (sector (axis_legs m 0) q')) with (b_rows m q').
        change (length (sector (axis_legs m 1) (qinv q'))) with (b_cols m q') in *.
        destruct (in_dec qdec q' qs) as [I|I].
        + rewrite (bondG_in k I). apply (HC' q' I); assumption.
        + rewrite (bondG_notin k I). assert (b_rows m q' = 0) as -> by (destruct (Nat.eq_dec (b_rows m q') 0) as [|Hn]; [assumption|]; exfalso; apply I, (qs_block W Eo HB); split; lia). reflexivity.
    Qed.
  End Qr.

  (** *** eigenvalues *)
  Section Eig.
    Variable np_eig : nat -> nat -> list K -> res (list K * mat K).
    Hypothesis matched : axis_legs m 1 = map flip (axis_legs m 0).
    Lemma square_block q : b_cols m q = b_rows m q.
    Proof. unfold b_cols, b_rows. rewrite matched, sector_flip, qinv_inv. reflexivity. Qed.
    Lemma square : cols = rows.
    Proof. rewrite matched, ldims_flip. reflexivity. Qed.
    Theorem eig_factors (out : G -> list K * mat K) : ndim m = 2 ->
      (forall q, has_block m q -> np_eig (b_rows m q) (b_rows m q) (b_entries m q) = Ok (out q) /\ eig_ok (b_rows m q) (b_entries m q) (out q)) ->
      exists E V, lin_eig lim blim junk np_eig m = Ok (E, V) /\ wf_bst V /\ length (bdata E) = rows /\ shape (dense_of V) = [rows; rows] /\
        axis_legs V 0 = axis_legs m 0 /\ axis_legs V 1 = map flip (axis_legs E 0) /\ bord E = [[0]] /\ length (bcs E) = 1 /\ ldims (axis_legs E 0) = [rows] /\
        (forall q, length (sector (axis_legs E 0) q) = b_rows m q) /\
        (forall i b, i < rows -> b < rows -> nsum rows (fun j => m_of m i j *! m_of V j b) = m_of V i b *! nth b (bdata E) r0) /\
        ((forall q, has_block m q -> orthonormal (snd (out q))) -> forall a b, a < rows -> b < rows -> nsum rows (fun i => cj (m_of V i a) *! m_of V i b) = delta a b).
    Proof.
      intros N2 HC. destruct (two_axes N2) as (o0 & o1 & Eo). destruct (mat_blocks_spec blim junk lim_pos W Eo) as (B & EB & HB).
      set (k := b_rows m). set (qs := rep (bqs B)). set (h := fun q => snd (out q)).
      assert (forall q, In q qs -> np_eig (b_rows m q) (b_cols m q) (b_entries m q) = Ok (out q) /\ eig_ok (b_rows m q) (b_entries m q) (out q)) as HC' by (intros q Hq; rewrite square_block; apply HC, (qs_block W Eo HB), Hq).
      unfold lin_eig. rewrite Eo, EB. cbn [rbind]. rewrite (block_list_eq W Eo HB). fold qs.
      assert (mapr (fun b => np_eig (fst (fst b)) (snd (fst b)) (snd b)) (map (fun q => (b_rows m q, b_cols m q, b_entries m q)) qs) = Ok (map out qs)) as ->.
      { clear - HC'. induction qs as [|q r IH]; [reflexivity|]. cbn [map mapr fst snd]. rewrite (proj1 (HC' q (or_introl eq_refl))). cbn [rbind]. rewrite IH by (intros; apply HC'; right; assumption). reflexivity. }
      cbn [rbind]. rewrite !map_map.
      assert (map (fun x => length (fst (out x))) qs = map k qs) as -> by (apply map_ext_in; intros q Hq; apply (HC' q Hq)).
      destruct (bond_charges HB k) as (q & Eb & Hq & Rq). fold qs in Eb. rewrite Eb. cbn [rbind].
      assert (o0 = nth 0 (bord m) []) as E0 by (rewrite Eo; auto).
      assert (concat (map (fun x => ravel_cols (snd (out x))) qs) = bond_data qs (map k qs) true (axis_legs m 0) (fun y i => m_at (h (nth (fst y) qs qid)) i (snd y))) as DV.
      { rewrite <- (map_map h (@ravel_cols K)). apply (@cols_data G qs k K h true); intros x Hx; apply (HC' x Hx). }
      destruct (@bond_last_spec G K m o0 o1 W Eo B k q Hq Rq 0 o0 true (fun x b a => m_at (h x) a b) _ E0 ltac:(lia) DV) as (V & EV & WV & SV & CV & FV & OV & AV0 & AV1 & GV).
      rewrite EV. cbn [rbind]. fold qs in SV, GV. pose proof (@bondG_ok G qs k (qs_nodup HB)) as OB. pose proof (@legG_ok G (axis_legs m 0)) as O0.
      assert (forall q', gsz (bondG qs k) q' = gsz (legG (axis_legs m 0)) q') as SZ.
      { intros q'. change (gsz (legG (axis_legs m 0)) q') with (b_rows m q'). destruct (in_dec qdec q' qs) as [I|I]; [apply (bondG_in k I)|]. rewrite (bondG_notin k I).
        destruct (Nat.eq_dec (b_rows m q') 0) as [->|Hn]; [reflexivity|]. exfalso. apply I, (qs_block W Eo HB). split; [exact Hn | rewrite square_block; exact Hn]. }
      assert (gn (bondG qs k) = rows) as GN.
      { change rows with (gn (legG (axis_legs m 0))). apply Nat.le_antisymm; apply gn_le; try assumption; intros q'; rewrite SZ; apply le_n. }
      rewrite GN in SV. assert (length (bonds (map k qs)) = rows) as GN' by exact GN.
      assert (map (@length K) (map (fun x => fst (out x)) qs) = map k qs) as EK by (rewrite map_map; apply map_ext_in; intros x Hx; apply (HC' x Hx)).
      eexists _, V. split; [reflexivity|]. cbn [bdata bord bcs bfs].
      assert (axis_legs (BST (concat (map (fun x => fst (out x)) qs)) [q] [false] [[0]]) 0 = [(rep q, false)]) as AE by reflexivity. rewrite AE.
      split; [exact WV|]. split; [rewrite (concat_bonds _ r0), map_length, EK; exact GN'|]. split; [exact SV|]. split; [exact AV0|]. split; [exact AV1|]. split; [reflexivity|]. split; [reflexivity|].
      split; [unfold ldims; cbn [map fst]; rewrite Rq, map_length; f_equal; exact GN'|].
      split; [intros q'; rewrite (bond_sector HB Rq); exact (SZ q')|]. split.
      - intros i b Hi Hb. pose proof (m_graded W Eo) as GM. rewrite matched, flip_flip in GM. cbn [map] in GV.
        pose proof (graded_mul O0 O0 OB GM GV) as GP. pose proof (@graded_diag G K (bondG qs k) (fun b => nth b (concat (map (fun x => fst (out x)) qs)) r0) OB) as GD.
        pose proof (graded_mul O0 OB OB GV GD) as GP'. assert (b < gn (bondG qs k)) as Hb' by (rewrite GN; exact Hb).
        transitivity (nsum (gn (bondG qs k)) (fun j => m_of V i j *! (if j =? b then nth j (concat (map (fun x => fst (out x)) qs)) r0 else r0))).
        + refine (@graded_eq G K _ _ _ _ _ _ i b O0 OB GP GP' _ Hi Hb').
          intros q' a c Ha Hc. cbv beta. destruct (in_dec qdec q' qs) as [I|I]; [|rewrite (bondG_notin k I) in Hc; lia]. rewrite (bondG_in k I) in *.
          destruct (HC' q' I) as [_ (S1 & S2 & S3 & S4)]. cbn [legG gsz] in *. change (length (sector (axis_legs m 0) q')) with (b_rows m q') in *.
          symmetry. rewrite (@nsum_single K _ _ c).
          * rewrite Nat.eqb_refl. replace (nth (gemb (bondG qs k) q' c) (concat (map (fun x => fst (out x)) qs)) r0) with (nth c (fst (out q')) r0).
            -- unfold h. rewrite <- (S4 a c Ha Hc). symmetry. apply nsum_ext. intros l Hl. unfold b_at. rewrite square_block. reflexivity.
            -- destruct (proj2 OB q' c ltac:(rewrite (bondG_in k I); exact Hc)) as (G1 & G2 & G3). set (b' := gemb (bondG qs k) q' c) in *. cbn [bondG gn gch gloc] in G1, G2, G3.
               rewrite (concat_bonds _ r0), EK. rewrite (@nth_map_lt _ _ _ _ _ _ (0, 0)) by exact G1. rewrite G3.
               assert (fst (nth b' (bonds (map k qs)) (0, 0)) < length qs) as Hl.
               { assert (In (nth b' (bonds (map k qs)) (0, 0)) (bonds (map k qs))) as Ib by (apply nth_In, G1). apply In_bonds in Ib as [Ib _]. rewrite map_length in Ib. exact Ib. }
               rewrite (@nth_map_lt _ _ _ _ _ _ qid) by exact Hl. rewrite G2. reflexivity.
          * exact Hc.
          * intros l Hl Nl. destruct (Nat.eqb_spec l c); [contradiction|]. ring.
        + rewrite (@nsum_single K _ _ b); [rewrite Nat.eqb_refl; reflexivity | exact Hb' |]. intros l Hl Nl. destruct (Nat.eqb_spec l b); [contradiction|]. ring.
      - intros HO a b Ha Hb. cbn [map] in GV. pose proof (graded_mul OB O0 OB (graded_map (@cj_0 K) (graded_tr GV)) GV) as GP. pose proof (@graded_diag G K (bondG qs k) (fun _ => r1) OB) as GI.
        rewrite <- GN in Ha, Hb. refine (@graded_eq G K _ _ _ _ _ _ a b OB OB GP GI _ Ha Hb).
        intros q' x y Hx Hy. cbv beta. destruct (in_dec qdec q' qs) as [I|I]; [|rewrite (bondG_notin k I) in Hx; lia]. rewrite (bondG_in k I) in Hx, Hy.
        destruct (HC' q' I) as [_ (S1 & S2 & S3 & S4)]. specialize (HO q' (proj1 (qs_block W Eo HB q') I)). unfold orthonormal in HO. rewrite S2, S3 in HO. apply HO; assumption.
    Qed.
  End Eig.
End Fact.
