(** * BstDot: contraction of block-sparse tensors *)
From Coq Require Import Permutation Ring.
From Verif Require Import Prelude Algebra Tensor TensorFacts Res Charge ChargeFacts BlockSparse BlockSpec BstSpec ListFacts BlockFacts BlockDegen BlockReduce BlockMaps BlockTr BlockPart BstFacts BstConv.
Set Implicit Arguments.
Unset Strict Implicit.

Lemma is_perm_app_comm n a b : is_perm n (a ++ b) -> is_perm n (b ++ a).
Proof. unfold is_perm. intros H. rewrite Permutation_app_comm. exact H. Qed.
Lemma unperm_swap n f c (a k : list nat) : is_perm n (f ++ c) -> length a = length f -> length k = length c ->
  unperm 0 (f ++ c) (a ++ k) = unperm 0 (c ++ f) (k ++ a).
Proof.
  intros Hp La Lk. pose proof (is_perm_NoDup Hp) as Hnd. apply NoDup_app_iff in Hnd. destruct Hnd as (_ & _ & Hd).
  apply (@list_ext _ _ _ 0); [rewrite !unperm_length, !app_length; lia|]. rewrite unperm_length. intros i Hi.
  rewrite !nth_unperm by (rewrite app_length in *; lia).
  assert (In i (f ++ c)) as Hin by (apply (@is_perm_In _ _ i Hp); rewrite <- (is_perm_length Hp); exact Hi).
  apply in_app_or in Hin. destruct Hin as [Hf|Hc].
  - rewrite index_of_app_l by exact Hf. rewrite index_of_app_r by (apply Hd, Hf).
    pose proof (@index_of_lt _ Nat.eq_dec _ _ Hf). rewrite app_nth1 by lia. rewrite app_nth2 by lia. f_equal. lia.
  - assert (~ In i f) as Hf by (intros Hf; apply (Hd _ Hf), Hc). rewrite index_of_app_r by exact Hf. rewrite index_of_app_l by exact Hc.
    pose proof (@index_of_lt _ Nat.eq_dec _ _ Hc). rewrite app_nth2 by lia. rewrite app_nth1 by lia. f_equal. lia.
Qed.

Lemma map_add_seq m k : map (fun i => i + m) (seq 0 k) = seq m k.
Proof. induction k as [|k IH]; [reflexivity|]. rewrite !seq_S, map_app, IH. cbn. f_equal. f_equal. lia. Qed.

Section Dot.
  Context {G : chg} {K : csr}.
  Add Ring Kring : (rsr K).
  Notation bst := (bst G K).
  Implicit Types (t : bst) (ls : list (leg G)).

  Lemma lsum_combine A B (f : A -> K) (g : B -> K) (x : list A) : forall y : list B, length x = length y ->
    lsum (combine (map f x) (map g y)) (fun p => fst p *! snd p) = lsum (combine x y) (fun p => f (fst p) *! g (snd p)).
  Proof.
    induction x as [|a x IH]; intros [|b y] H; try discriminate; [reflexivity|]. cbn [map combine]. rewrite !lsum_cons. cbn [fst snd].
    rewrite IH by (cbn in H; lia). reflexivity.
  Qed.
  Lemma lsum_combine_diag A (h : A * A -> K) (x : list A) : lsum (combine x x) h = lsum x (fun a => h (a, a)).
  Proof. induction x as [|a x IH]; [reflexivity|]. cbn [combine]. rewrite !lsum_cons, IH. reflexivity. Qed.

  Lemma entry_split ls (data : list K) flat n a k L C : is_perm (length ls) flat -> gather ([], false) ls flat = L ++ C -> n = length L ->
    length a = n -> length k = length C -> charge_of L a <> qinv (charge_of C k) -> entry ls data (unperm 0 flat (a ++ k)) = r0.
  Proof.
    intros Hp E -> La Lk N. apply entry_zero. rewrite charge_of_unperm; [|exact Hp | rewrite app_length, La, Lk, <- app_length, <- E, gather_length; apply is_perm_length, Hp].
    rewrite E, charge_of_app by exact La. intros E0. apply N. apply qop_eq_id, E0.
  Qed.

  (** sum over the contracted indices at the level of elementary legs; [flat1] lists the free then the
      contracted legs of the first tensor, [flat2] the contracted then the free ones of the second *)
  Section Elem.
    Variables (l1 l2 : list (leg G)) (d1 d2 : list K) (flat1 flat2 : list nat) (L C R : list (leg G)).
    Hypothesis P1 : is_perm (length l1) flat1.
    Hypothesis P2 : is_perm (length l2) flat2.
    Hypothesis E1 : gather ([], false) l1 flat1 = L ++ C.
    Hypothesis E2 : gather ([], false) l2 flat2 = map flip C ++ R.

    Definition prod_sum (a b : list nat) (ks : list (list nat)) : K :=
      lsum ks (fun k => entry l1 d1 (unperm 0 flat1 (a ++ k)) *! entry l2 d2 (unperm 0 flat2 (k ++ b))).

    Lemma prod_sum_sector a b : length a = length L -> length b = length R ->
      prod_sum a b (idxs (ldims C)) = prod_sum a b (sector C (qinv (charge_of L a))).
    Proof.
      intros La Lb. unfold prod_sum, sector. rewrite lsum_filter. apply lsum_ext. intros k Hk. apply In_idxs in Hk.
      apply valid_length in Hk. rewrite ldims_length in Hk.
      destruct (qdec (charge_of C k) (qinv (charge_of L a))) as [_|N]; [reflexivity|].
      rewrite (entry_split d1 P1 E1 eq_refl La Hk); [ring|]. intros E. apply N. rewrite E, qinv_inv. reflexivity.
    Qed.
    Lemma prod_sum_zero a b : length a = length L -> length b = length R -> qop (charge_of L a) (charge_of R b) <> qid ->
      prod_sum a b (idxs (ldims C)) = r0.
    Proof.
      intros La Lb N. rewrite prod_sum_sector by assumption. apply lsum_zero. intros k Hk. apply In_sector in Hk. destruct Hk as [Hv Hq].
      apply valid_length in Hv. rewrite ldims_length in Hv.
      rewrite (entry_split d2 P2 E2 (n := length (map flip C))); [ring | reflexivity | rewrite map_length; exact Hv | exact Lb|].
      rewrite charge_of_flip, Hq, qinv_inv. intros E. apply N. rewrite E. apply qinvl.
    Qed.
  End Elem.

  (** ** Compatibility of contracted legs *)
  Lemma flip_legs (cc1 cc2 : list (bc G)) (cf1 cf2 : list bool) : length cc1 = length cc2 ->
    leqb Bool.bool_dec cf1 (map negb cf2) = true -> forallb (fun cc => charge_equal (fst cc) (snd cc)) (combine cc1 cc2) = true ->
    legs cc2 cf2 = map flip (legs cc1 cf1).
  Proof.
    intros Hl Hf Hc. apply leqb_true in Hf. subst cf1. rewrite legs_negb.
    assert (map (fun c => rep c) cc1 = map (fun c => rep c) cc2) as E.
    { clear - Hl Hc. revert cc2 Hl Hc. induction cc1 as [|c r IH]; intros [|c2 r2] Hl Hc; try discriminate; [reflexivity|].
      cbn in Hc. apply andb_true_iff in Hc. destruct Hc as [H1 H2]. cbn [map]. f_equal; [apply charge_equal_sound, H1 | apply IH; [cbn in Hl; lia | exact H2]]. }
    unfold legs. rewrite E, map_map. rewrite <- (map_id (combine _ cf2)) at 1. apply map_ext. intros [x f]. unfold flip. cbn. rewrite Bool.negb_involutive. reflexivity.
  Qed.

  Variables lim blim junk : nat.
  Hypothesis lim_pos : 0 < lim.

  (** ** Outer products *)
  Lemma outer_block (l1 l2 : list (leg G)) : block (l1 ++ l2) (seq 0 (length (l1 ++ l2))) (length l1) qid =
    map (pos (l1 ++ l2)) (flat_map (fun r => map (fun c => r ++ c) (allowed l2)) (allowed l1)).
  Proof.
    unfold block, row_legs, col_legs. rewrite gather_legs_seq by reflexivity.
    rewrite firstn_app, Nat.sub_diag, firstn_all. cbn [firstn]. rewrite app_nil_r.
    rewrite skipn_app, Nat.sub_diag, skipn_all. cbn [skipn app]. rewrite qinv_id, map_flat_map. fold (allowed l1). fold (allowed l2).
    apply flat_map_ext_in. intros r Hr. rewrite map_map. apply map_ext_in. intros c Hc. rewrite unperm_seq; [reflexivity|].
    apply In_sector in Hr, Hc. destruct Hr as [Hr _], Hc as [Hc _]. apply valid_length in Hr, Hc. rewrite ldims_length in Hr, Hc.
    rewrite !app_length. congruence.
  Qed.

  Lemma outer_entry (l1 l2 : list (leg G)) (d1 d2 data : list K) : length d1 = length (allowed l1) -> length d2 = length (allowed l2) ->
    (forall ix, In ix (allowed (l1 ++ l2)) -> nth (pos (l1 ++ l2) ix) data r0 =
       entry l1 d1 (firstn (length l1) ix) *! entry l2 d2 (skipn (length l1) ix)) ->
    forall a b, valid a (ldims l1) -> valid b (ldims l2) -> entry (l1 ++ l2) data (a ++ b) = entry l1 d1 a *! entry l2 d2 b.
  Proof.
    intros H1 H2 H a b Ha Hb. pose proof (valid_length Ha) as La. rewrite ldims_length in La.
    destruct (qdec (charge_of (l1 ++ l2) (a ++ b)) qid) as [E|N].
    - assert (In (a ++ b) (allowed (l1 ++ l2))) as Hi.
      { apply In_sector. split; [rewrite ldims_app; apply valid_app; assumption | exact E]. }
      rewrite entry_allowed by exact Hi. rewrite H by exact Hi. rewrite <- La at 1 2.
      rewrite firstn_app, Nat.sub_diag, firstn_all. cbn [firstn]. rewrite app_nil_r.
      rewrite skipn_app, Nat.sub_diag, skipn_all. reflexivity.
    - rewrite entry_zero by exact N. rewrite charge_of_app in N by exact La.
      destruct (qdec (charge_of l1 a) qid) as [E1|N1].
      + destruct (qdec (charge_of l2 b) qid) as [E2|N2].
        * exfalso. apply N. rewrite E1, E2. apply qidl.
        * rewrite (entry_zero d2 N2). ring.
      + rewrite (entry_zero d1 N1). ring.
  Qed.

  Lemma dense_elt t I : elt (dense_of t) I =
    entry (elegs t) (bdata t) (unperm 0 (concat (bord t)) (split_index (map (gather 0 (ldims (elegs t))) (bord t)) I)).
  Proof. reflexivity. Qed.
  Lemma dense_shape t : shape (dense_of t) = map nprod (map (gather 0 (ldims (elegs t))) (bord t)).
  Proof. reflexivity. Qed.

  Lemma nth_pair_grid A (f : list nat -> list nat -> A) (X Y : list (list nat)) r c d : In r X -> In c Y ->
    nth (index_of ixdec r X * length Y + index_of ixdec c Y) (flat_map (fun x => map (f x) Y) X) d = f r c.
  Proof.
    intros Hr Hc. rewrite (@nth_flat_map_grid _ _ (fun x => map (f x) Y) X (length Y) _ _ _ []).
    - rewrite nth_index_of by exact Hr. rewrite (@nth_map_lt _ _ _ _ _ _ []) by (apply index_of_lt, Hc). rewrite nth_index_of by exact Hc. reflexivity.
    - intros x _. apply map_length.
    - apply index_of_lt, Hr.
    - apply index_of_lt, Hc.
  Qed.

  Lemma outerproduct_spec t1 t2 : wf_bst t1 -> wf_bst t2 -> bcs t1 ++ bcs t2 <> [] ->
    exists t, outerproduct lim blim t1 t2 = Ok t /\ wf_bst t /\
      bcs t = bcs t1 ++ bcs t2 /\ bfs t = bfs t1 ++ bfs t2 /\ teq (dense_of t) (outer (dense_of t1) (dense_of t2)).
  Proof.
    intros W1 W2 Hne. unfold outerproduct. cbv zeta. set (cs := bcs t1 ++ bcs t2) in *. set (fs := bfs t1 ++ bfs t2).
    pose proof (wf_len W1) as Lf1. pose proof (wf_len W2) as Lf2.
    assert (all_ok cs) as Hok by (apply all_ok_app; [apply wf_ok, W1 | apply wf_ok, W2]).
    assert (length cs = length fs) as Lcf by (unfold cs, fs; rewrite !app_length; lia).
    rewrite (num_nonzero_spec lim_pos Hok Lcf Hne). cbn [rbind].
    set (l1 := elegs t1). set (l2 := elegs t2).
    assert (legs cs fs = l1 ++ l2) as El by (apply legs_app, Lf1). rewrite El.
    assert (length l1 = length (bcs t1)) as Ll1 by (apply wf_legs_length, W1).
    assert (length l2 = length (bcs t2)) as Ll2 by (apply wf_legs_length, W2).
    pose proof (wf_data W1) as D1. pose proof (wf_data W2) as D2. fold l1 in D1. fold l2 in D2.
    set (n := length (allowed (l1 ++ l2))).
    (* the data *)
    match goal with |- context [rbind ?X _] => assert (exists data, X = Ok data /\ length data = n /\
      forall ix, In ix (allowed (l1 ++ l2)) -> nth (pos (l1 ++ l2) ix) data r0 = entry l1 (bdata t1) (firstn (length l1) ix) *! entry l2 (bdata t2) (skipn (length l1) ix)) as (data & Ed & Ld & Hd) end.
    { assert (forall ix, In ix (allowed (l1 ++ l2)) -> charge_of l1 (firstn (length l1) ix) = qid ->
        In (firstn (length l1) ix) (allowed l1) /\ In (skipn (length l1) ix) (allowed l2)) as Hsplit.
      { intros ix Hix Hq. assert (In ix (pairs l1 l2 qid)) as Hi by (apply In_pairs; auto).
        unfold pairs in Hi. apply in_flat_map in Hi. destruct Hi as (r & Hr & Hi). apply in_map_iff in Hi. destruct Hi as (c & <- & Hc).
        rewrite qinv_id in Hc. pose proof Hr as Hr'. apply In_sector in Hr'. destruct Hr' as [Hv _]. apply valid_length in Hv. rewrite ldims_length in Hv.
        rewrite <- Hv. rewrite firstn_app, Nat.sub_diag, firstn_all. cbn [firstn]. rewrite app_nil_r.
        rewrite skipn_app, Nat.sub_diag, skipn_all. split; assumption. }
      destruct ((0 <? length (bdata t1)) && (0 <? length (bdata t2)) && (0 <? n)) eqn:Ec.
      - apply andb_true_iff in Ec. destruct Ec as [Ec _]. apply andb_true_iff in Ec. destruct Ec as [Ec1 Ec2]. apply Nat.ltb_lt in Ec1, Ec2.
        destruct (@diag_blocks_spec G lim blim lim_pos cs fs (length (bcs t1)) Hok Lcf Hne) as (B & EB & B1 & B2 & B3 & B4 & _ & B6 & _);
          [unfold cs; rewrite app_length; lia|]. rewrite EB. cbn [rbind]. rewrite El in *.
        assert (length cs = length (l1 ++ l2)) as Lcs by (unfold cs; rewrite !app_length; lia). rewrite Lcs, <- Ll1 in *.
        assert (row_legs (l1 ++ l2) (seq 0 (length (l1 ++ l2))) (length l1) = l1) as Er.
        { unfold row_legs. rewrite gather_legs_seq by reflexivity. rewrite firstn_app, Nat.sub_diag, firstn_all. apply app_nil_r. }
        assert (col_legs (l1 ++ l2) (seq 0 (length (l1 ++ l2))) (length l1) = l2) as Ecl.
        { unfold col_legs. rewrite gather_legs_seq by reflexivity. rewrite skipn_app, Nat.sub_diag, skipn_all. reflexivity. }
        assert (In qid (rep (bqs B))) as Hid.
        { apply B6; [rewrite Er | rewrite Ecl, qinv_id]; intros E0.
          - unfold allowed in D1. rewrite E0 in D1. cbn in D1. lia.
          - unfold allowed in D2. rewrite E0 in D2. cbn in D2. lia. }
        destruct (in_dec qdec qid (rep (bqs B))) as [_|N]; [|contradiction].
        set (m := nth _ (bmaps B) []).
        assert (m = map (pos (l1 ++ l2)) (flat_map (fun r => map (fun c => r ++ c) (allowed l2)) (allowed l1))) as Em.
        { unfold m. rewrite B4, (@nth_map_lt _ _ _ _ _ _ qid) by (apply index_of_lt, Hid). rewrite nth_index_of by exact Hid. apply outer_block. }
        set (vals := flat_map _ (bdata t1)).
        assert (length m = length vals) as Lm.
        { rewrite Em, map_length. unfold vals. rewrite (@flat_map_const_length _ _ _ (length (allowed l2))) by (intros; apply map_length).
          rewrite (@flat_map_const_length _ _ _ (length (bdata t2))) by (intros; apply map_length). congruence. }
        rewrite Lm, Nat.eqb_refl. eexists. split; [reflexivity|]. split; [rewrite scatter_length; apply repeat_length|].
        intros ix Hix.
        assert (forall p, In p m -> p < length (repeat (@r0 K) n)) as Hb.
        { intros p Hp. rewrite repeat_length. rewrite Em in Hp. apply in_map_iff in Hp. destruct Hp as (jx & <- & Hj). apply pos_lt.
          apply in_flat_map in Hj. destruct Hj as (r & Hr & Hj). apply in_map_iff in Hj. destruct Hj as (c & <- & Hc).
          apply (@allowed_pairs _ l1 l2 qid); [exact Hr | rewrite qinv_id; exact Hc]. }
        assert (forall jx, In jx (flat_map (fun r => map (fun c => r ++ c) (allowed l2)) (allowed l1)) -> In jx (allowed (l1 ++ l2)) /\ charge_of l1 (firstn (length l1) jx) = qid) as Hgrid.
        { intros jx Hj. apply in_flat_map in Hj. destruct Hj as (r & Hr & Hj). apply in_map_iff in Hj. destruct Hj as (c & <- & Hc).
          apply In_pairs. unfold pairs. apply in_flat_map. exists r. split; [exact Hr|]. apply in_map. rewrite qinv_id. exact Hc. }
        assert (NoDup m) as Hnm.
        { assert (m = block (l1 ++ l2) (seq 0 (length (l1 ++ l2))) (length l1) qid) as -> by (rewrite Em; symmetry; apply outer_block). apply NoDup_block, is_perm_seq. }
        destruct (qdec (charge_of l1 (firstn (length l1) ix)) qid) as [Eq|Nq].
        + destruct (Hsplit ix Hix Eq) as [Hr Hc]. set (r := firstn (length l1) ix) in *. set (c := skipn (length l1) ix) in *.
          assert (ix = r ++ c) as Eix by (symmetry; apply firstn_skipn).
          assert (In ix (flat_map (fun r => map (fun c => r ++ c) (allowed l2)) (allowed l1))) as Hig.
          { rewrite Eix. apply in_flat_map. exists r. split; [exact Hr|]. apply in_map, Hc. }
          rewrite scatter_in; [|exact Hnm | exact Lm | exact Hb | rewrite Em; apply in_map, Hig].
          rewrite !entry_allowed by assumption.
          assert (nindex (pos (l1 ++ l2) ix) m = index_of ixdec r (allowed l1) * length (allowed l2) + index_of ixdec c (allowed l2)) as Ei.
          { rewrite Em. rewrite (@index_of_map_inj _ _ ixdec Nat.eq_dec (pos (l1 ++ l2))) by (intros jx Hj E0; apply (@pos_inj _ (l1 ++ l2)); [apply Hgrid, Hj | exact Hix | exact E0]).
            rewrite <- (@nth_pair_grid _ (fun r c => r ++ c) (allowed l1) (allowed l2) r c [] Hr Hc) in Eix.
            rewrite Eix at 1. apply index_of_nth.
            - assert (Permutation (flat_map (fun x => map (app x) (allowed l2)) (allowed l1)) (pairs l1 l2 qid)) as Hpp by (unfold pairs; rewrite qinv_id; reflexivity).
              apply (Permutation_NoDup (Permutation_sym Hpp)), NoDup_pairs.
            - rewrite (@flat_map_const_length _ _ _ (length (allowed l2))) by (intros; apply map_length).
              pose proof (@index_of_lt _ ixdec _ _ Hr). pose proof (@index_of_lt _ ixdec _ _ Hc). nia. }
          rewrite Ei. unfold vals, pos. rewrite <- D2.
          rewrite (@nth_flat_map_grid _ _ (fun x => map (fun y => x *! y) (bdata t2)) (bdata t1) (length (bdata t2)) _ _ _ r0).
          * rewrite (@nth_map_lt _ _ _ _ _ _ r0) by (rewrite D2; apply index_of_lt, Hc). reflexivity.
          * intros; apply map_length.
          * rewrite D1. apply index_of_lt, Hr.
          * rewrite D2. apply index_of_lt, Hc.
        + rewrite scatter_notin; [|exact Hb|].
          * rewrite nth_repeat. rewrite (entry_zero (bdata t1) Nq). ring.
          * rewrite Em. intros Hi. apply in_map_iff in Hi. destruct Hi as (jx & E0 & Hj). apply Hgrid in Hj. destruct Hj as [Hj1 Hj2].
            apply (pos_inj Hj1 Hix) in E0. congruence.
      - eexists. split; [reflexivity|]. split; [apply repeat_length|]. intros ix Hix. rewrite nth_repeat.
        destruct (qdec (charge_of l1 (firstn (length l1) ix)) qid) as [Eq|Nq]; [|rewrite (entry_zero (bdata t1) Nq); ring].
        exfalso. destruct (Hsplit ix Hix Eq) as [Hr Hc].
        assert (0 < length (allowed l1)) as H1 by (pose proof (@index_of_lt _ ixdec _ _ Hr); lia).
        assert (0 < length (allowed l2)) as H2 by (pose proof (@index_of_lt _ ixdec _ _ Hc); lia).
        assert (0 < n) as H3 by (pose proof (@index_of_lt _ ixdec _ _ Hix); unfold n; lia).
        rewrite <- D1 in H1. rewrite <- D2 in H2. apply Nat.ltb_lt in H1, H2, H3. rewrite H1, H2, H3 in Ec. discriminate. }
    rewrite Ed. cbn [rbind]. eexists. split; [reflexivity|].
    set (o2 := map (map (fun i => i + length (bcs t1))) (bord t2)). set (t := BST data cs fs (bord t1 ++ o2)).
    assert (elegs t = l1 ++ l2) as Et by exact El.
    pose proof (wf_perm W1) as Q1. pose proof (wf_perm W2) as Q2.
    assert (concat (bord t) = concat (bord t1) ++ map (fun i => i + length (bcs t1)) (concat (bord t2))) as Econ.
    { unfold t, o2. cbn [bord]. rewrite concat_app. f_equal. symmetry. apply concat_map. }
    assert (is_perm (length cs) (concat (bord t))) as Qt.
    { rewrite Econ. unfold is_perm, cs. rewrite app_length, seq_app. apply Permutation_app; [exact Q1|]. cbn [Nat.add].
      rewrite (Permutation_map (fun i => i + length (bcs t1)) Q2). rewrite map_add_seq. reflexivity. }
    split.
    { unfold wf_bst. rewrite Et. split; [exact Lcf|]. split; [exact Hok|]. split; [exact Ld|]. split; [exact Qt|].
      intros o Ho. unfold t, o2 in Ho. cbn [bord] in Ho. apply in_app_or in Ho. destruct Ho as [Ho|Ho].
      - destruct W1 as (_ & _ & _ & _ & W). apply W, Ho.
      - apply in_map_iff in Ho. destruct Ho as (o' & <- & Ho'). destruct W2 as (_ & _ & _ & _ & W). specialize (W _ Ho'). destruct o'; [congruence | discriminate]. }
    split; [reflexivity|]. split; [reflexivity|].
    assert (map (gather 0 (ldims (l1 ++ l2))) (bord t) = map (gather 0 (ldims l1)) (bord t1) ++ map (gather 0 (ldims l2)) (bord t2)) as Egs.
    { unfold t, o2. cbn [bord]. rewrite map_app, ldims_app. f_equal.
      - apply map_ext_in. intros o Ho. unfold gather. apply map_ext_in. intros i Hi. apply app_nth1. rewrite ldims_length, Ll1.
        apply (@is_perm_In _ _ i Q1), in_concat. exists o. auto.
      - rewrite map_map. apply map_ext_in. intros o Ho. unfold gather. rewrite map_map. apply map_ext_in. intros i Hi.
        rewrite app_nth2 by (rewrite ldims_length, Ll1; lia). f_equal. rewrite ldims_length, Ll1. lia. }
    split.
    - rewrite dense_shape, Et, Egs, map_app. reflexivity.
    - intros I HI. rewrite dense_shape, Et, Egs, map_app in HI. rewrite dense_elt, Et, Egs. unfold outer. cbn [elt].
      destruct (@valid_app_inv _ _ _ HI) as [HI1 HI2]. rewrite map_length in HI1, HI2.
      assert (rank (dense_of t1) = length (map (gather 0 (ldims l1)) (bord t1))) as Erk by (unfold rank; rewrite dense_shape, map_length; reflexivity).
      rewrite Erk, !dense_elt. fold l1. fold l2.
      set (gs1 := map (gather 0 (ldims l1)) (bord t1)) in *. set (gs2 := map (gather 0 (ldims l2)) (bord t2)) in *.
      rewrite <- (firstn_skipn (length gs1) I) at 1.
      pose proof (valid_length HI1) as LI1. rewrite map_length in LI1. pose proof (valid_length HI2) as LI2. rewrite map_length in LI2.
      rewrite split_index_app by exact LI1.
      set (a := split_index gs1 (firstn (length gs1) I)). set (b := split_index gs2 (skipn (length gs1) I)).
      assert (valid a (concat gs1)) as Va by (apply split_index_valid, HI1).
      assert (valid b (concat gs2)) as Vb by (apply split_index_valid, HI2).
      unfold gs1 in Va. unfold gs2 in Vb. rewrite <- gather_concat in Va, Vb.
      pose proof (valid_length Va) as La. rewrite gather_length, (is_perm_length Q1) in La.
      pose proof (valid_length Vb) as Lb. rewrite gather_length, (is_perm_length Q2) in Lb.
      assert (unperm 0 (concat (bord t)) (a ++ b) = unperm 0 (concat (bord t1)) a ++ unperm 0 (concat (bord t2)) b) as Eu.
      { rewrite Econ. apply (@list_ext _ _ _ 0); [rewrite app_length, !unperm_length, app_length, map_length; reflexivity|].
        rewrite unperm_length, app_length, map_length, (is_perm_length Q1), (is_perm_length Q2). intros i Hi.
        rewrite nth_unperm by (rewrite app_length, map_length, (is_perm_length Q1), (is_perm_length Q2); exact Hi).
        destruct (Nat.lt_ge_cases i (length (bcs t1))) as [Hl|Hl].
        - assert (In i (concat (bord t1))) as Hin by (apply (@is_perm_In _ _ i Q1), Hl).
          rewrite index_of_app_l by exact Hin. pose proof (@index_of_lt _ Nat.eq_dec _ _ Hin) as Hlt. rewrite (is_perm_length Q1) in Hlt.
          rewrite app_nth1 by lia. rewrite app_nth1 by (rewrite unperm_length, (is_perm_length Q1); exact Hl).
          rewrite nth_unperm by (rewrite (is_perm_length Q1); exact Hl). reflexivity.
        - rewrite index_of_app_r by (intros Hin; apply (@is_perm_In _ _ i Q1) in Hin; lia).
          rewrite (is_perm_length Q1). rewrite app_nth2 by lia. rewrite app_nth2 by (rewrite unperm_length, (is_perm_length Q1); exact Hl).
          rewrite unperm_length, (is_perm_length Q1), La.
          rewrite nth_unperm by (rewrite (is_perm_length Q2); lia).
          set (k := i - length (bcs t1)). replace i with (k + length (bcs t1)) by (unfold k; lia).
          rewrite (@index_of_map_inj _ _ Nat.eq_dec Nat.eq_dec (fun j => j + length (bcs t1))) by (intros; lia). f_equal. lia. }
      rewrite Eu. unfold t. cbn [bdata]. apply outer_entry; [exact D1 | exact D2 | exact Hd | |].
      + apply valid_unperm; [rewrite ldims_length, Ll1; exact Q1 | exact Va].
      + apply valid_unperm; [rewrite ldims_length, Ll2; exact Q2 | exact Vb].
  Qed.
End Dot.
