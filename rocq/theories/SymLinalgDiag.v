(** * SymLinalgDiag: identities, diagonal matrices, diagonals and norms *)
From Coq Require Import Permutation List Lia Arith Sorting.Sorted.
From Verif Require Import Prelude Algebra Tensor TensorFacts Res Charge ChargeFacts BlockSparse BlockSpec BstSpec ListFacts BlockFacts BlockReduce BlockMaps BlockTr BlockPart BstFacts BstConv BstDot BstTensordot BstOps SymSvd SymSvdBond SymSvdTensorFacts SymLinalg SymLinalgSpec SymLinalgGrade SymLinalgMat SymLinalgBond SymLinalgFact SymLinalgInv.
Import ListNotations.
Set Implicit Arguments.
Unset Strict Implicit.

Section Diag.
  Context {G : chg} {K : csr}.
  Add Ring KringD : (rsr K).
  Variables lim blim junk : nat.
  Hypothesis lim_pos : 0 < lim.
  Variable emp : K.

  (** *** identities *)
  (** a matrix without entries yet *)
  Definition blank (cs0 cs1 : list (bc G)) (fs0 fs1 : list bool) : bst G K :=
    BST (repeat r0 (length (allowed (legs (cs0 ++ cs1) (fs0 ++ fs1))))) (cs0 ++ cs1) (fs0 ++ fs1) [seq 0 (length cs0); seq (length cs0) (length cs1)].
  Lemma blank_spec (i0 i1 : index (G := G)) : wf_index i0 -> wf_index i1 -> let m := blank (fst i0) (fst i1) (snd i0) (snd i1) in
    wf_bst m /\ axis_legs m 0 = legs (fst i0) (snd i0) /\ axis_legs m 1 = legs (fst i1) (snd i1).
  Proof.
    intros (E0 & N0 & O0) (E1 & N1 & O1) m. destruct i0 as [cs0 fs0], i1 as [cs1 fs1]. cbn [fst snd] in *.
    assert (elegs m = legs cs0 fs0 ++ legs cs1 fs1) as EL by (apply legs_app; exact E0).
    assert (length (legs cs0 fs0) = length cs0) as L0 by (apply legs_length, E0). assert (length (legs cs1 fs1) = length cs1) as L1 by (apply legs_length, E1).
    split; [|split].
    - split; [unfold m; cbn [bcs bfs blank]; rewrite !app_length; lia|]. split; [intros c Hc; apply in_app_or in Hc as [Hc|Hc]; [apply O0, Hc | apply O1, Hc]|].
      split; [apply repeat_length|]. split.
      + unfold m. cbn [bord bcs blank concat]. rewrite app_nil_r, <- seq_app, app_length. apply Permutation_refl.
      + intros o [<-|[<-|[]]]; [destruct cs0; [congruence | discriminate] | destruct cs1; [congruence | discriminate]].
    - unfold axis_legs. rewrite EL. unfold m. cbn [bord blank nth]. rewrite <- L0. unfold gather. transitivity (gather ([], false) (legs cs0 fs0) (seq 0 (length (legs cs0 fs0)))); [|apply gather_seq].
      apply map_ext_in. intros i Hi. apply in_seq in Hi. apply app_nth1. lia.
    - unfold axis_legs. rewrite EL. unfold m. cbn [bord blank nth]. rewrite <- L1, <- L0. transitivity (gather ([], false) (legs cs1 fs1) (seq 0 (length (legs cs1 fs1)))); [|apply gather_seq].
      rewrite <- map_add_seq. unfold gather. rewrite map_map. apply map_ext_in. intros i Hi. rewrite Nat.add_comm. apply app_nth2_plus.
  Qed.
  Lemma eye_graded (col row : index (G := G)) : wf_index col -> wf_index row ->
    exists t, lin_eye lim blim emp col (Some row) = Ok t /\ wf_bst t /\ bcs t = fst col ++ fst row /\ bfs t = snd col ++ snd row /\
      bord t = [seq 0 (length (fst col)); seq (length (fst col)) (length (fst row))] /\
      axis_legs t 0 = legs (fst col) (snd col) /\ axis_legs t 1 = legs (fst row) (snd row) /\
      graded (m_of t) (legG (legs (fst col) (snd col))) (legG (map flip (legs (fst row) (snd row)))) (fun _ a b => delta a b).
  Proof.
    intros Wc Wr. destruct (blank_spec Wc Wr) as (WM & A0 & A1). set (m := blank (fst col) (fst row) (snd col) (snd row)) in *.
    destruct Wc as (E0 & N0 & O0). destruct Wr as (E1 & N1 & O1).
    destruct (@diag_blocks_spec G lim blim lim_pos (fst col ++ fst row) (snd col ++ snd row) (length (fst col))) as (B & EB & HB).
    { apply all_ok_app; assumption. } { rewrite !app_length. lia. } { destruct (fst col); [congruence | discriminate]. } { rewrite app_length. lia. }
    assert (blocks_ok (elegs m) (seq 0 (length (fst col)) ++ seq (length (fst col)) (length (fst row))) (length (seq 0 (length (fst col)))) B) as HB'.
    { rewrite <- seq_app, seq_length, <- app_length. exact HB. }
    destruct (@filled G K m _ _ WM eq_refl B HB' emp (fun q => np_eye (b_rows m q) (b_cols m q))) as (D & EF & WT & GT).
    { intros q Hq. apply grid_length. }
    unfold lin_eye. rewrite EB. cbn [rbind].
    assert (map (fun d => np_eye (fst d) (snd d)) (bdims B) = map (fun q => np_eye (b_rows m q) (b_cols m q)) (rep (bqs B))) as -> by (rewrite (blocks_dims (eq_refl : bord m = [_; _]) HB'), map_map; reflexivity).
    rewrite EF. cbn [rbind]. eexists. split; [reflexivity|]. split; [exact WT|]. do 3 (split; [reflexivity|]). split; [exact A0|]. split; [exact A1|].
    rewrite A0, A1 in GT. intros i j Hi Hj. specialize (GT i j Hi Hj). refine (eq_trans GT _). destruct (qdec _ _) as [E|]; [|reflexivity].
    set (q := gch (legG (legs (fst col) (snd col))) i) in *.
    pose proof (proj1 (proj1 (@legG_ok G (legs (fst col) (snd col))) i Hi)) as H1. pose proof (proj1 (proj1 (@legG_ok G (map flip (legs (fst row) (snd row)))) j Hj)) as H2. rewrite <- E in H2. fold q in H1.
    cbn [legG gsz] in H1, H2. rewrite sector_flip in H2. unfold np_eye. unfold b_cols, b_rows. rewrite A0, A1. apply (@nth_grid K (fun i j => if i =? j then r1 else r0)); assumption.
  Qed.
  Lemma flip_index_wf (i : index (G := G)) : wf_index i -> wf_index (flip_index i).
  Proof. intros (E & N & O). split; [cbn; rewrite map_length; exact E|]. split; assumption. Qed.
  Theorem eye_square (col : index (G := G)) : wf_index col ->
    exists t, lin_eye lim blim emp col None = Ok t /\ wf_bst t /\ bcs t = fst col ++ fst col /\ bfs t = snd col ++ map negb (snd col) /\
      bord t = [seq 0 (length (fst col)); seq (length (fst col)) (length (fst col))] /\
      axis_legs t 0 = legs (fst col) (snd col) /\ axis_legs t 1 = map flip (axis_legs t 0) /\
      shape (dense_of t) = [idim col; idim col] /\ forall i j, i < idim col -> j < idim col -> m_of t i j = delta i j.
  Proof.
    intros Wc. destruct (eye_graded Wc (flip_index_wf Wc)) as (t & Et & Wt & E1 & E2 & E3 & A0 & A1 & GT).
    exists t. split; [exact Et|]. split; [exact Wt|]. split; [exact E1|]. split; [exact E2|]. split; [exact E3|]. split; [exact A0|].
    cbn [flip_index fst snd] in A1, GT. rewrite legs_negb in A1, GT. rewrite flip_flip in GT. split; [rewrite A1, A0; reflexivity|].
    assert (nprod (ldims (legs (fst col) (snd col))) = idim col) as ED by (rewrite ldims_legs by apply Wc; reflexivity).
    split; [rewrite (mo_shape Wt E3), A0, A1, ldims_flip, ED; reflexivity|].
    intros i j Hi Hj. pose proof (@legG_ok G (legs (fst col) (snd col))) as O. refine (@graded_eq G K _ _ _ _ _ _ i j O O GT (@graded_diag G K _ (fun _ => r1) O) _ _ _).
    - reflexivity.
    - cbn [legG gn]. rewrite ED. exact Hi.
    - cbn [legG gn]. rewrite ED. exact Hj.
  Qed.

  (** *** diagonal matrices *)
  Lemma single_positions (l : leg G) q : sector [l] q = map (fun b => [b]) (filter (fun b => if qdec (leg_charge l b) q then true else false) (seq 0 (length (fst l)))).
  Proof.
    unfold sector, ldims. cbn [map idxs]. rewrite flat_map_concat_map. cbn [map]. rewrite concat_single.
    induction (seq 0 (length (fst l))) as [|b r IH]; [reflexivity|]. cbn [map filter]. rewrite IH.
    assert (charge_of [l] [b] = leg_charge l b) as -> by (cbn [charge_of]; rewrite qcomm; apply qidl). destruct (qdec (leg_charge l b) q); reflexivity.
  Qed.
  Lemma sort_seq n l : Permutation l (seq 0 n) -> sort Nat.leb l = seq 0 n.
  Proof.
    intros P. apply (@sorted_unique _ (fun a b => (a <=? b) = true)).
    - intros x y H1 H2. apply Nat.leb_le in H1, H2. lia.
    - apply sort_sorted; [intros x y; destruct (Nat.leb_spec x y); [left; reflexivity | right; apply Nat.leb_le; lia] | intros x y z H1 H2; apply Nat.leb_le in H1, H2; apply Nat.leb_le; lia].
    - clear P. generalize 0. induction n as [|n IH]; intros s; cbn [seq]; constructor; [apply IH|]. apply Forall_forall. intros x Hx. apply in_seq in Hx. apply Nat.leb_le. lia.
    - rewrite sort_perm. exact P.
  Qed.
  Lemma sparse_lookup_all (c : bc G) f targets : bc_ok c -> (forall x, In x (charges_of [(rep c, f)]) -> In x targets) ->
    let chs := charges_of [(rep c, f)] in
    sparse_lookup [c] [f] targets = Ok (inverse chs, uniq chs, seq 0 (length (uniq chs))).
  Proof.
    intros Hc Ht chs. unfold sparse_lookup. destruct (@fuse_charges_spec G [c] [f]) as (c' & -> & Hc' & Rc & _).
    { intros x [<-|[]]. exact Hc. } { reflexivity. } { discriminate. }
    cbn [rbind]. assert (rep c' = chs) as Rc' by (rewrite Rc; reflexivity). rewrite Rc'.
    assert (isect (uniq chs) targets = uniq chs) as EI.
    { transitivity (uniq (uniq chs)).
      - unfold isect. rewrite ListFacts.filter_all; [reflexivity|]. intros x Hx. unfold qmem. destruct (in_dec qdec x targets) as [|N]; [reflexivity|]. exfalso. apply N, Ht. rewrite !In_uniq in Hx. exact Hx.
      - apply uniq_ext. intros x. apply In_uniq. }
    rewrite EI. unfold locs_in. rewrite index_map by apply NoDup_uniq. f_equal. f_equal; [f_equal|apply sort_seq, Permutation_refl].
    set (n := length (uniq chs)). assert (map (fun k => if existsb (Nat.eqb k) (seq 0 n) then Some k else None) (seq 0 n) = map Some (seq 0 n)) as ->.
    { apply map_ext_in. intros k Hk. assert (existsb (Nat.eqb k) (seq 0 n) = true) as -> by (apply existsb_exists; exists k; split; [exact Hk | apply Nat.eqb_refl]). reflexivity. }
    unfold inverse. rewrite map_map. assert (forall x, In x chs -> nth (index_of qdec x (uniq chs)) (map Some (seq 0 n)) None = Some (index_of qdec x (uniq chs))) as HS.
    { intros x Hx. assert (index_of qdec x (uniq chs) < n) by (apply index_of_lt, In_uniq, Hx). rewrite (@nth_map_lt _ _ _ _ _ _ 0) by (rewrite seq_length; assumption). rewrite seq_nth by assumption. reflexivity. }
    clearbody n. revert HS. generalize (uniq chs) as u. intros u. clear. induction chs as [|x r IH]; intros HS; [reflexivity|]. cbn [map]. unfold somes. cbn [flat_map]. rewrite HS by (left; reflexivity). cbn [app]. f_equal. apply IH. intros y Hy. apply HS. right. exact Hy.
  Qed.
  (** the diagonal matrix of a vector with a single charge *)
  Theorem diagflat_diagonal (c : bc G) f (data : list K) : bc_ok c -> length data = length (rep c) ->
    exists t, lin_diagflat lim blim junk (BST data [c] [f] [[0]]) = Ok t /\ wf_bst t /\ bcs t = [c; c] /\ bfs t = [f; negb f] /\ bord t = [[0]; [1]] /\
      shape (dense_of t) = [length data; length data] /\
      forall i j, i < length data -> j < length data -> m_of t i j = if i =? j then nth i data r0 else r0.
  Proof.
    intros Hc Hd. assert (wf_index ([c], [f])) as W0 by (split; [reflexivity|]; split; [discriminate|]; intros x [<-|[]]; exact Hc).
    pose proof (flip_index_wf W0) as W1. destruct (blank_spec W0 W1) as (WM & A0 & A1). cbn [fst snd flip_index map] in *.
    set (m := blank [c] [c] [f] [negb f]) in *. set (l := (rep c, f)) in *. change (legs [c] [f]) with [l] in A0. change (legs [c] [negb f]) with (map flip [l]) in A1.
    assert (bord m = [[0]; [1]]) as Eo by reflexivity.
    destruct (@tr_blocks_spec G lim blim junk lim_pos [c; c] [f; negb f] 1 [0; 1]) as (B & EB & HB).
    { intros x [<-|[<-|[]]]; exact Hc. } { reflexivity. } { discriminate. } { cbn. lia. } { apply Permutation_refl. }
    assert (forall q, In q (rep (bqs B)) <-> sector [l] q <> []) as HQ.
    { intros q. rewrite (@qs_block G K m [0] [1] WM Eo B HB q). unfold has_block, b_rows, b_cols. rewrite A0, A1, sector_flip, qinv_inv, length_zero_iff_nil. tauto. }
    set (P := fun q => filter (fun b => if qdec (leg_charge l b) q then true else false) (seq 0 (length (rep c)))).
    assert (forall q, sector [l] q = map (fun b => [b]) (P q)) as EP by (intros q; apply single_positions).
    unfold lin_diagflat. cbn [bord bcs bfs bdata length app map concat]. change (0 + 1) with 1. rewrite EB. cbn [rbind].
    assert (charges_of [l] = map (leg_charge l) (seq 0 (length (rep c)))) as EC.
    { unfold charges_of, ldims. cbn [map idxs]. rewrite flat_map_concat_map. cbn [map]. rewrite concat_single, map_map. apply map_ext. intros b. cbn [charge_of]. rewrite qcomm. apply qidl. }
    rewrite (@sparse_lookup_all c f (rep (bqs B)) Hc).
    2:{ intros x Hx. apply HQ. fold l in Hx. rewrite EC in Hx. apply in_map_iff in Hx as (b & <- & Hb). rewrite EP. intros E. apply map_eq_nil in E.
        assert (In b (P (leg_charge l b))) as I by (apply filter_In; split; [exact Hb|]; destruct (qdec _ _); congruence). rewrite E in I. exact I. }
    cbn [rbind]. fold l. set (chs := charges_of [l]) in *. set (u := uniq chs).
    assert (forall q, In q (rep (bqs B)) -> In q u) as Hu.
    { intros q Hq. apply In_uniq. apply HQ in Hq. rewrite EP in Hq. destruct (P q) as [|b r] eqn:E; [contradiction Hq; reflexivity|].
      assert (In b (P q)) as I by (rewrite E; left; reflexivity). apply filter_In in I as [I1 I2]. destruct (qdec (leg_charge l b) q) as [<-|]; [|discriminate]. rewrite EC. apply in_map, I1. }
    assert (map (fun q => diag_matrix (gather r0 data (flatnonzero (map (Nat.eqb (nth (index_of qdec q u) (seq 0 (length u)) 0)) (inverse chs))))) (rep (bqs B)) = map (fun q => diag_matrix (gather r0 data (P q))) (rep (bqs B))) as EV.
    { apply map_ext_in. intros q Hq. f_equal. f_equal. pose proof (index_of_lt qdec q u (Hu q Hq)) as Hi. rewrite seq_nth by exact Hi. cbn [Nat.add].
      unfold inverse. rewrite map_map. fold u. rewrite (flatnonzero_map _ chs qid). unfold P. rewrite EC, map_length, seq_length. apply filter_ext_in. intros b Hb. apply in_seq in Hb.
      rewrite (@nth_map_lt _ _ _ _ _ _ 0) by (rewrite seq_length; lia). rewrite seq_nth by lia. cbn [Nat.add].
      assert (In (leg_charge l b) u) as Ib by (apply In_uniq; rewrite EC; apply in_map, in_seq; lia).
      destruct (qdec (leg_charge l b) q) as [<-|N]; [apply Nat.eqb_refl|]. apply Nat.eqb_neq. intros E. apply N. rewrite <- (nth_index_of qdec (leg_charge l b) u qid Ib), <- E. apply nth_index_of, Hu, Hq. }
    cbv zeta. rewrite EV. clear EV.
    assert (forall q, length (P q) = b_rows m q) as LP by (intros q; unfold b_rows; rewrite A0, EP, map_length; reflexivity).
    assert (forall q, b_cols m q = b_rows m q) as SQ by (intros q; unfold b_cols, b_rows; rewrite A0, A1, sector_flip, qinv_inv; reflexivity).
    assert (forall q, length (gather r0 data (P q)) = b_rows m q) as LG by (intros q; rewrite <- LP; apply map_length).
    destruct (@filled G K m [0] [1] WM Eo B HB r0 (fun q => diag_matrix (gather r0 data (P q)))) as (D & EF & WT & GT).
    { intros q Hq. unfold diag_matrix. rewrite grid_length, LG, SQ. reflexivity. }
    rewrite EF. cbn [rbind]. eexists. split; [reflexivity|]. split; [exact WT|]. split; [reflexivity|]. split; [reflexivity|]. split; [reflexivity|].
    assert (nprod (ldims [l]) = length data) as EN by (cbn; rewrite Nat.mul_1_r; symmetry; exact Hd).
    assert (shape (dense_of (BST D [c; c] [f; negb f] [[0]; [1]])) = [length data; length data]) as ES.
    { refine (eq_trans (mo_shape WT Eo) _). change (axis_legs (BST D (bcs m) (bfs m) (bord m)) 0) with (axis_legs m 0). change (axis_legs (BST D (bcs m) (bfs m) (bord m)) 1) with (axis_legs m 1). rewrite A0, A1, ldims_flip, EN. reflexivity. }
    split; [exact ES|]. rewrite A0, A1, flip_flip in GT. intros i j Hi Hj. pose proof (@legG_ok G [l]) as O.
    refine (@graded_eq G K _ _ _ _ _ _ i j O O GT (@graded_diag G K _ (fun i => nth i data r0) O) _ _ _).
    - intros q a b Ha Hb. cbn [legG gsz gemb] in *. change (length (sector [l] q)) with (length (sector [l] q)) in Ha. assert (length (sector [l] q) = b_rows m q) as ER by (unfold b_rows; rewrite A0; reflexivity).
      rewrite ER in Ha, Hb. unfold diag_matrix. rewrite SQ, LG. rewrite (@nth_grid K (fun i j => if i =? j then nth i (gather r0 data (P q)) r0 else r0)) by assumption. cbn [Nat.add].
      destruct (a =? b); [|reflexivity]. unfold gather. rewrite (@nth_map_lt _ _ _ _ _ _ 0) by (rewrite LP; exact Ha). f_equal.
      rewrite EP. rewrite (@nth_map_lt _ _ _ _ _ _ 0) by (rewrite LP; exact Ha). cbn. lia.
    - cbn [legG gn]. rewrite EN. exact Hi.
    - cbn [legG gn]. rewrite EN. exact Hj.
  Qed.

  (** *** diagonals *)
  Lemma two_groups (m : bst G K) : ndim m = 2 -> exists o0 o1, bord m = [o0; o1].
  Proof. unfold ndim. destruct (bord m) as [|o0 [|o1 [|? ?]]]; try discriminate. eauto. Qed.
  Theorem diagonal_entries (m : bst G K) : wf_bst m -> ndim m = 2 -> axis_legs m 1 = map flip (axis_legs m 0) ->
    let n := nprod (ldims (axis_legs m 0)) in
    exists d q ps, lin_diagonal lim blim junk m = Ok d /\ bcs d = [q] /\ bfs d = [false] /\ bord d = [[0]] /\ bc_ok q /\
      Permutation ps (seq 0 n) /\ bdata d = map (fun i => m_of m i i) ps /\
      rep q = map (fun i => charge_of (axis_legs m 0) (unravel (ldims (axis_legs m 0)) i)) ps.
  Proof.
    intros W N2 matched n. destruct (two_groups N2) as (o0 & o1 & Eo). destruct (mat_blocks_spec blim junk lim_pos W Eo) as (B & EB & HB).
    unfold mat_blocks in EB. rewrite Eo in EB. unfold lin_diagonal. rewrite Eo. cbn [length Nat.ltb Nat.leb]. rewrite EB. cbn [rbind].
    rewrite (block_list_eq W Eo HB), (blocks_dims Eo HB), !map_map. cbn [fst snd]. set (qs := rep (bqs B)). pose (k := b_rows m).
    assert (forall q, b_cols m q = b_rows m q) as SB by (intros q; unfold b_cols, b_rows; rewrite matched, sector_flip, qinv_inv; reflexivity).
    assert (map (fun x => Nat.min (b_rows m x) (b_cols m x)) qs = map k qs) as -> by (apply map_ext; intros x; rewrite SB; apply Nat.min_id).
    destruct (bond_charges HB k) as (q & Eb & Hq & Rq). fold qs in Eb. rewrite Eb. cbn [rbind].
    pose proof (@bondG_ok G qs k (qs_nodup HB)) as OB. pose proof (@legG_ok G (axis_legs m 0)) as O0. set (L := axis_legs m 0) in *.
    assert (forall q', gsz (bondG qs k) q' = gsz (legG L) q') as SZ.
    { intros q'. change (gsz (legG L) q') with (b_rows m q'). destruct (in_dec qdec q' qs) as [I|I]; [apply (bondG_in k I)|]. rewrite (bondG_notin k I).
      destruct (Nat.eq_dec (b_rows m q') 0) as [->|Hn]; [reflexivity|]. exfalso. apply I, (qs_block W Eo HB). split; [exact Hn | rewrite SB; exact Hn]. }
    set (ps := map (fun x => gemb (legG L) (nth (fst x) qs qid) (snd x)) (bonds (map k qs))).
    assert (forall x, In x (bonds (map k qs)) -> fst x < length qs /\ snd x < gsz (legG L) (nth (fst x) qs qid)) as Hx.
    { intros x Hx. apply In_bonds in Hx as [H1 H2]. rewrite map_length in H1. split; [exact H1|]. rewrite (@nth_map_lt _ _ _ _ _ _ qid) in H2 by exact H1. exact H2. }
    eexists _, q, ps. split; [reflexivity|]. split; [reflexivity|]. split; [reflexivity|]. split; [reflexivity|]. split; [exact Hq|]. split; [|split].
    - apply NoDup_Permutation; [|apply seq_NoDup|].
      + apply Prelude.NoDup_map_in; [|apply NoDup_bonds]. intros x y Ix Iy E. destruct (Hx x Ix) as [X1 X2]. destruct (Hx y Iy) as [Y1 Y2].
        destruct (proj2 O0 _ _ X2) as (_ & C1 & L1). destruct (proj2 O0 _ _ Y2) as (_ & C2 & L2). rewrite E in C1, L1. rewrite C2 in C1. rewrite L2 in L1.
        destruct x as [x1 x2], y as [y1 y2]. cbn [fst snd] in *. f_equal; [|congruence]. apply (proj1 (NoDup_nth qs qid) (qs_nodup HB)); congruence.
      + intros i. rewrite in_seq. unfold ps. rewrite in_map_iff. split.
        * intros (x & <- & Ix). destruct (Hx x Ix) as [X1 X2]. destruct (proj2 O0 _ _ X2) as (H1 & _). cbn [legG gn] in H1. fold n in H1. lia.
        * intros Hi. destruct (proj1 O0 i) as [H1 H2]; [cbn [legG gn]; fold n; lia|]. set (q' := gch (legG L) i) in *.
          assert (In q' qs) as Iq by (apply (qs_block W Eo HB); unfold has_block; rewrite SB; change (b_rows m q') with (gsz (legG L) q'); lia).
          exists (index_of qdec q' qs, gloc (legG L) i). cbn [fst snd]. rewrite nth_index_of by exact Iq. split; [exact H2|]. apply In_bonds. cbn [fst snd]. rewrite map_length.
          pose proof (index_of_lt qdec q' qs Iq) as Hlt. split; [exact Hlt|]. rewrite (@nth_map_lt _ _ _ _ _ _ qid) by exact Hlt. rewrite nth_index_of by exact Iq. exact H1.
    - cbn [bdata]. unfold ps. rewrite map_map. rewrite map_bonds, map_length. rewrite (list_by_index qs qid) at 1. rewrite map_map. f_equal. apply map_ext_in. intros s Hs. apply in_seq in Hs.
      rewrite (@nth_map_lt _ _ _ _ _ _ qid) by lia. rewrite SB, Nat.min_id. apply map_ext_in. intros a Ha. apply in_seq in Ha. cbn [fst snd].
      pose proof (m_graded W Eo) as GM. rewrite matched in GM. fold L in GM. rewrite flip_flip in GM. rewrite (graded_at O0 O0 GM) by (change (gsz (legG L) (nth s qs qid)) with (b_rows m (nth s qs qid)); unfold k in Ha; lia).
      unfold b_at. rewrite SB. reflexivity.
    - rewrite Rq. unfold ps. rewrite map_map. apply map_ext_in. intros x Ix. destruct (Hx x Ix) as [X1 X2]. destruct (proj2 O0 _ _ X2) as (_ & C1 & _). symmetry. exact C1.
  Qed.

  (** *** sums over all entries *)
  Theorem dense_sum (f : K -> K) (t : bst G K) : wf_bst t -> f r0 = r0 -> lsum (idxs (shape (dense_of t))) (fun I => f (elt (dense_of t) I)) = lsum (bdata t) f.
  Proof.
    intros W Hf. pose proof (wf_perm W) as Hp. pose proof (wf_legs_length W) as HL. rewrite dense_shape.
    set (gs := map (gather 0 (ldims (elegs t))) (bord t)). set (order := concat (bord t)) in *.
    transitivity (lsum (map (split_index gs) (idxs (map nprod gs))) (fun ix => f (entry (elegs t) (bdata t) (unperm 0 order ix)))).
    { rewrite lsum_map. apply lsum_ext. intros I _. rewrite dense_elt. reflexivity. }
    rewrite map_split_idxs. assert (concat gs = ldims (gather ([], false) (elegs t) order)) as ->.
    { unfold gs. rewrite ldims_gather by (intros i Hi; rewrite HL; apply (is_perm_In i Hp), Hi). symmetry. apply gather_concat. }
    set (ls' := gather ([], false) (elegs t) order). assert (is_perm (length (elegs t)) order) as Hp' by (rewrite HL; exact Hp).
    transitivity (lsum (allowed ls') (fun ix => f (entry (elegs t) (bdata t) (unperm 0 order ix)))).
    - unfold allowed, sector. rewrite lsum_filter. apply lsum_ext. intros ix Hix. apply In_idxs in Hix. destruct (qdec (charge_of ls' ix) qid) as [|N]; [reflexivity|].
      rewrite entry_zero; [exact Hf|]. rewrite charge_of_unperm; [exact N | exact Hp' |]. rewrite (valid_length Hix), ldims_length. unfold ls'. rewrite gather_length. apply (is_perm_length Hp').
    - rewrite <- (lsum_map (unperm 0 order) (allowed ls') (fun ix => f (entry (elegs t) (bdata t) ix))). rewrite (lsum_perm _ (allowed_perm Hp')).
      transitivity (lsum (map (fun ix => entry (elegs t) (bdata t) ix) (allowed (elegs t))) f); [symmetry; apply lsum_map|]. f_equal.
      pose proof (wf_data W) as HD. apply (nth_ext _ _ r0 r0); [rewrite map_length; symmetry; exact HD|]. intros i Hi. rewrite map_length in Hi.
      rewrite (@nth_map_lt _ _ _ _ _ _ []) by exact Hi. rewrite entry_allowed by (apply nth_In, Hi). f_equal. apply index_of_nth; [apply NoDup_sector | exact Hi].
  Qed.
End Diag.
