(** * BstConv: [fromdense] and [contiguous] *)
From Coq Require Import Permutation.
From Verif Require Import Prelude Algebra Tensor TensorFacts Res Charge ChargeFacts BlockSparse BlockSpec BstSpec ListFacts BlockFacts BlockDegen BlockReduce BlockMaps BlockTr BlockPart BstFacts.
Set Implicit Arguments.
Unset Strict Implicit.

Lemma groups_from_concat s lens : concat (groups_from s lens) = seq s (list_sum lens).
Proof. revert s. induction lens as [|n r IH]; intros s; [reflexivity|]. cbn [groups_from concat]. rewrite IH. change (list_sum (n :: r)) with (n + list_sum r). symmetry. apply seq_app. Qed.
Lemma groups_from_gather A (d : A) (ll : list (list A)) l0 :
  map (gather d (l0 ++ concat ll)) (groups_from (length l0) (map (@length A) ll)) = ll.
Proof.
  revert l0. induction ll as [|l r IH]; intros l0; [reflexivity|]. cbn [map groups_from concat]. f_equal.
  - unfold gather. apply (@list_ext _ _ _ d); [rewrite map_length, seq_length; reflexivity|]. rewrite map_length, seq_length. intros i Hi.
    rewrite (@nth_map_lt _ _ _ _ _ _ 0) by (rewrite seq_length; exact Hi). rewrite seq_nth by exact Hi.
    rewrite app_nth2 by lia. replace (length l0 + i - length l0) with i by lia. apply app_nth1, Hi.
  - specialize (IH (l0 ++ l)). rewrite app_length, <- app_assoc in IH. exact IH.
Qed.
Lemma list_sum_lengths A (ll : list (list A)) : list_sum (map (@length A) ll) = length (concat ll).
Proof. induction ll as [|l r IH]; [reflexivity|]. cbn [concat map]. rewrite app_length, <- IH. reflexivity. Qed.
Lemma groups_from_In s lens o : In o (groups_from s lens) -> exists n b, In n lens /\ o = seq b n.
Proof.
  revert s. induction lens as [|n r IH]; intros s Hi; [destruct Hi|]. cbn in Hi. destruct Hi as [<-|Hi].
  - exists n, s. split; [left; reflexivity | reflexivity].
  - destruct (IH _ Hi) as (n' & b & H1 & H2). exists n', b. split; [right; exact H1 | exact H2].
Qed.

Section Conv.
  Context {G : chg} {K : csr}.
  Notation bst := (bst G K).
  Notation index := (@index G).
  Implicit Types (t : bst) (ls : list (leg G)).

  (** an index: as many flows as charges, at least one, all charge objects well formed *)
  Definition wf_index (i : index) : Prop := length (fst i) = length (snd i) /\ fst i <> [] /\ all_ok (fst i).
  (** dimensions of the elementary legs of each index *)
  Definition index_dims (ixs : list index) : list (list nat) := map (fun i => map (fun c => bdim c) (fst i)) ixs.
  Definition index_legs (ixs : list index) : list (leg G) := flat_map (fun i => legs (fst i) (snd i)) ixs.

  Lemma index_flat (ixs : list index) : (forall i, In i ixs -> wf_index i) ->
    length (flat_map fst ixs) = length (flat_map snd ixs) /\ all_ok (flat_map fst ixs) /\
    legs (flat_map fst ixs) (flat_map snd ixs) = index_legs ixs /\
    map (fun c => bdim c) (flat_map fst ixs) = concat (index_dims ixs).
  Proof.
    induction ixs as [|i r IH]; intros H.
    - split; [reflexivity|]. split; [intros c []|]. split; reflexivity.
    - destruct IH as (I1 & I2 & I3 & I4); [intros; apply H; right; assumption|].
      destruct (H i (or_introl eq_refl)) as (H1 & H2 & H3). cbn [flat_map]. split; [rewrite !app_length; lia|].
      split; [apply all_ok_app; assumption|]. split.
      + rewrite legs_app by exact H1. rewrite I3. reflexivity.
      + rewrite map_app, I4. reflexivity.
  Qed.

  Lemma fromdense_spec (ixs : list index) (a : tensor K) : ixs <> [] -> (forall i, In i ixs -> wf_index i) ->
    shape a = map (fun i => idim i) ixs ->
    exists t, fromdense ixs a = Ok t /\ wf_bst t /\ bcs t = flat_map fst ixs /\ bfs t = flat_map snd ixs /\
      bord t = groups_from 0 (map (fun i => length (fst i)) ixs) /\
      concat (bord t) = seq 0 (length (bcs t)) /\
      teq (dense_of t) (Tensor (shape a) (fun I => if qdec (charge_of (index_legs ixs) (split_index (index_dims ixs) I)) qid then elt a I else r0)).
  Proof.
    intros Hne Hok Hsh. destruct (index_flat Hok) as (L1 & L2 & L3 & L4). unfold fromdense.
    assert (leqb Nat.eq_dec (map (fun i => idim i) ixs) (shape a) = true) as -> by (apply leqb_true; congruence).
    assert (flat_map fst ixs <> []) as Hc.
    { destruct ixs as [|i r]; [congruence|]. destruct (Hok i (or_introl eq_refl)) as (_ & H & _). cbn. destruct (fst i); [congruence | discriminate]. }
    destruct (@reduce_charges_spec _ (flat_map fst ixs) (flat_map snd ixs) (uniques (@identity_charges G 1)) None L2 L1 Hc) as (d & Ed & _);
      [discriminate|].
    destruct (flat_map fst ixs) as [|c0 cs0] eqn:Ecs; [congruence|]. rewrite <- Ecs in *. rewrite Ed. cbn [rbind fst snd].
    eexists. split; [reflexivity|].
    change (uniques (@identity_charges G 1)) with [@qid G] in *.
    set (ls := legs (flat_map fst ixs) (flat_map snd ixs)) in *.
    assert (kept ls [qid] = allowed ls) as Ek.
    { unfold kept, allowed, sector. apply filter_ext. intros ix. destruct (qdec (charge_of ls ix) qid) as [E|N].
      - apply qmem_In. left. congruence.
      - destruct (qmem (charge_of ls ix) [qid]) eqn:Eq; [|reflexivity]. apply qmem_In in Eq. destruct Eq as [E|[]]. congruence. }
    rewrite Ek. clear Ek Ed. set (t := BST _ _ _ _). assert (elegs t = ls) as Els by reflexivity.
    assert (ldims ls = concat (index_dims ixs)) as Edims by (unfold ls; rewrite ldims_legs, L4 by exact L1; reflexivity).
    assert (map (fun i => length (fst i)) ixs = map (@length nat) (index_dims ixs)) as Elens.
    { unfold index_dims. rewrite map_map. apply map_ext. intros i. symmetry. apply map_length. }
    assert (concat (bord t) = seq 0 (length (flat_map fst ixs))) as Eord.
    { unfold t. cbn [bord]. rewrite groups_from_concat. f_equal. rewrite Elens, list_sum_lengths, <- L4, map_length. reflexivity. }
    assert (map (gather 0 (ldims ls)) (bord t) = index_dims ixs) as Egs.
    { unfold t. cbn [bord]. rewrite Edims, Elens. exact (groups_from_gather 0 (index_dims ixs) []). }
    assert (map nprod (index_dims ixs) = shape a) as Eshape.
    { unfold index_dims. rewrite map_map, Hsh. reflexivity. }
    split.
    { unfold wf_bst. rewrite Els, Eord. unfold t. cbn [bcs bfs bdata bord]. split; [exact L1|]. split; [exact L2|].
      split; [rewrite gather_length, map_length; reflexivity|]. split; [apply is_perm_seq|].
      intros o Ho. apply groups_from_In in Ho. destruct Ho as (n & b & Hn & ->). apply in_map_iff in Hn. destruct Hn as (i & <- & Hi).
      destruct (Hok i Hi) as (_ & H & _). destruct (fst i); [congruence | discriminate]. }
    split; [reflexivity|]. split; [reflexivity|]. split; [reflexivity|]. split; [exact Eord|].
    unfold dense_of. rewrite Els. change (fun o => gather 0 (ldims ls) o) with (gather 0 (ldims ls)). rewrite Egs.
    split; [exact Eshape|]. cbn [shape elt]. intros I HI. rewrite Eord.
    set (ix := split_index (index_dims ixs) I).
    assert (valid ix (ldims ls)) as Hix by (rewrite Edims; apply split_index_valid, HI).
    assert (length (flat_map fst ixs) = length ls) as Lls by (symmetry; apply legs_length, L1).
    rewrite unperm_seq by (apply valid_length in Hix; rewrite ldims_length in Hix; congruence).
    rewrite <- L3. unfold t. cbn [bdata]. fold ls.
    destruct (qdec (charge_of ls ix) qid) as [E|N]; [|apply entry_zero, N].
    assert (In ix (allowed ls)) as Ha by (apply In_sector; auto).
    rewrite entry_allowed by exact Ha. unfold gather. rewrite map_map. rewrite nth_allowed by exact Ha. cbn [loc_of].
    unfold to_list. rewrite Eshape in HI.
    assert (ravel (ldims ls) ix = ravel (shape a) I) as -> by (rewrite Edims; unfold ix; rewrite split_index_ravel by (rewrite Eshape; exact HI); rewrite Eshape; reflexivity).
    rewrite (@nth_map_lt _ _ _ _ _ _ []) by (rewrite length_idxs; apply ravel_lt, HI). rewrite nth_idxs by exact HI. reflexivity.
  Qed.

  Variables lim blim junk : nat.
  Hypothesis lim_pos : 0 < lim.

  Lemma fold_put (src D : list K) (f : nat -> list nat * list nat) (ok : nat -> Prop) (dec : forall n, {ok n} + {~ ok n}) ns acc :
    (forall n, In n ns -> ok n /\ gather r0 src (snd (f n)) = gather r0 D (fst (f n))) ->
    fold_left (fun a n => if dec n then put a (f n) src else Raise) ns (Ok acc) =
    Ok (fold_left (fun a ps => scatter a ps (gather r0 D ps)) (map (fun n => fst (f n)) ns) acc).
  Proof.
    revert acc. induction ns as [|n ns IH]; intros acc H; [reflexivity|]. cbn [fold_left map].
    destruct (H n (or_introl eq_refl)) as (H1 & H3). destruct (dec n) as [_|N]; [|contradiction].
    unfold put at 2. cbn [rbind]. pose proof (f_equal (@length _) H3) as H2. rewrite !gather_length in H2. rewrite H2, Nat.eqb_refl, H3.
    apply IH. intros; apply H; right; assumption.
  Qed.

  Lemma ldims_gather ls p : (forall i, In i p -> i < length ls) -> ldims (gather ([], false) ls p) = gather 0 (ldims ls) p.
  Proof. intros H. unfold ldims. apply map_gather, H. Qed.

  Lemma entry_charge_perm ls (data data' : list K) perm ix : is_perm (length ls) perm ->
    (forall jx, In jx (allowed (gather ([], false) ls perm)) -> nth (pos (gather ([], false) ls perm) jx) data' r0 = nth (pos ls (unperm 0 perm jx)) data r0) ->
    valid ix (ldims (gather ([], false) ls perm)) ->
    entry (gather ([], false) ls perm) data' ix = entry ls data (unperm 0 perm ix).
  Proof.
    intros Hp H Hix. unfold entry. rewrite charge_of_unperm; [|exact Hp | apply valid_length in Hix; rewrite Hix, ldims_length, gather_length; apply is_perm_length, Hp].
    destruct (qdec (charge_of (gather ([], false) ls perm) ix) qid) as [E|N]; [|reflexivity].
    apply H, In_sector. auto.
  Qed.

  Lemma contiguous_spec t perm : wf_bst t -> is_perm (length (bcs t)) perm ->
    exists u, contiguous lim blim junk t perm = Ok u /\ wf_bst u /\
      bcs u = gather (Raw []) (bcs t) perm /\ bfs u = gather false (bfs t) perm /\
      bord u = map (map (fun i => nindex i perm)) (bord t) /\
      (forall ix, valid ix (ldims (elegs u)) -> entry (elegs u) (bdata u) ix = entry (elegs t) (bdata t) (unperm 0 perm ix)) /\
      teq (dense_of u) (dense_of t).
  Proof.
    intros Hwf Hp. set (n := length (bcs t)) in *. pose proof (is_perm_length Hp) as Lp.
    pose proof (wf_len Hwf) as Lf. pose proof (wf_perm Hwf) as Hord. fold n in Hord.
    assert (forall o i, In o (bord t) -> In i o -> i < n) as Hio.
    { intros o i Ho Hi. apply (@is_perm_In _ _ i Hord). apply in_concat. exists o. auto. }
    unfold contiguous. destruct (leqb Nat.eq_dec perm (seq 0 (length perm))) eqn:Eq.
    - apply leqb_true in Eq. rewrite Lp in Eq. exists t. split; [reflexivity|]. split; [exact Hwf|]. subst perm.
      split; [symmetry; apply gather_seq|]. split; [unfold n; rewrite Lf; symmetry; apply gather_seq|].
      split; [|split; [|apply teq_refl]].
      + rewrite <- (map_id (bord t)) at 1. apply map_ext_in. intros o Ho. rewrite <- (map_id o) at 1. apply map_ext_in. intros i Hi.
        symmetry. apply index_of_seq. apply (Hio o); assumption.
      + intros ix Hix. rewrite unperm_seq; [reflexivity|]. apply valid_length in Hix. rewrite Hix. apply wf_dims_length, Hwf.
    - assert (2 <= n) as Hn2.
      { destruct perm as [|i [|j o]]; [discriminate | | cbn in Lp; lia].
        cbn in Lp. assert (i < n) as Hi by (apply (@is_perm_In _ _ i Hp); left; reflexivity). replace i with 0 in Eq by lia. discriminate. }
      clear Eq. cbv zeta. set (pcs := gather (Raw []) (bcs t) perm). set (pfs := gather false (bfs t) perm).
      assert (length pcs = n) as Lpcs by (unfold pcs; rewrite gather_length; exact Lp).
      assert (length pfs = n) as Lpfs by (unfold pfs; rewrite gather_length; exact Lp).
      destruct (@find_best_partition_ok (map (fun c => bdim c) pcs)) as (p & Ep & Hp1 & Hp2); [rewrite map_length; lia|].
      rewrite map_length in Hp2. rewrite Ep. cbn [rbind].
      assert (bcs t <> []) as Hc by (intros E; unfold n in Hn2; rewrite E in Hn2; cbn in Hn2; lia).
      assert (pcs <> []) as Hpc by (intros E; rewrite E in Lpcs; cbn in Lpcs; lia).
      destruct (@tr_blocks_spec G lim blim junk lim_pos (bcs t) (bfs t) p perm (wf_ok Hwf) Lf Hc) as (tb & Etb & Htb); [fold n; lia | exact Hp |].
      destruct (@diag_blocks_spec G lim blim lim_pos pcs pfs p) as (sb & Esb & Hsb); [apply all_ok_gather, wf_ok, Hwf | congruence | exact Hpc | lia |].
      rewrite Etb. cbn [rbind]. rewrite Esb. cbn [rbind].
      set (ls := legs (bcs t) (bfs t)) in *.
      assert (legs pcs pfs = gather ([], false) ls perm) as Elegs by (apply legs_gather; [exact Lf | intros i Hi; apply (@is_perm_In _ _ i Hp), Hi]).
      rewrite Elegs in Hsb. set (ls' := gather ([], false) ls perm) in *.
      assert (length ls = n) as Lls by (apply legs_length, Lf).
      assert (length ls' = n) as Lls' by (unfold ls'; rewrite gather_length; exact Lp).
      rewrite Lpcs in Hsb.
      assert (is_perm (length ls') (seq 0 n)) as Hseq by (rewrite Lls'; apply is_perm_seq).
      pose proof (blocks_partition Hseq (ltac:(lia) : p <= length ls') Hsb) as Hpart.
      assert (gather ([], false) ls' (seq 0 n) = ls') as Egs by (apply gather_legs_seq, Lls').
      assert (row_legs ls' (seq 0 n) p = row_legs ls perm p) as Erow by (unfold row_legs; rewrite Egs; reflexivity).
      assert (col_legs ls' (seq 0 n) p = col_legs ls perm p) as Ecol by (unfold col_legs; rewrite Egs; reflexivity).
      set (D := map (fun ix => nth (pos ls (unperm 0 perm ix)) (bdata t) r0) (allowed ls')).
      assert (forall q, gather r0 (bdata t) (block ls perm p q) = gather r0 D (block ls' (seq 0 n) p q)) as Hblk.
      { intros q. rewrite !block_pairs, Erow, Ecol. unfold gather. rewrite !map_map. apply map_ext_in. intros ix Hix.
        apply In_pairs in Hix. destruct Hix as [Hix _]. unfold row_legs, col_legs in Hix. rewrite firstn_skipn in Hix. fold ls' in Hix.
        rewrite unperm_seq by (apply In_sector in Hix; destruct Hix as [Hv _]; apply valid_length in Hv; rewrite ldims_length in Hv; congruence).
        symmetry. unfold D. apply (nth_allowed (fun ix => nth (pos ls (unperm 0 perm ix)) (bdata t) r0) Hix). }
      destruct Htb as (_ & _ & T3 & T4 & _ & T6 & _). destruct Hsb as (_ & _ & S3 & S4 & _ & S6 & S7).
      set (qs := rep (bqs sb)) in *. set (qt := rep (bqs tb)) in *.
      assert (length (bmaps sb) = length qs) as Lsb by (rewrite S4; apply map_length).
      rewrite (@fold_put (bdata t) D (fun k => (nth k (bmaps sb) [], nth (index_of qdec (nth k qs qid) qt) (bmaps tb) []))
                (fun k => In (nth k qs qid) qt) (fun k => in_dec qdec (nth k qs qid) qt)).
      2: { intros k Hk. apply in_seq in Hk. assert (In (nth k qs qid) qs) as Hq by (apply nth_In; lia).
           assert (In (nth k qs qid) qt) as Hqt.
           { destruct (S7 _ Hq) as [_ Hs]. rewrite seq_length in Hs. rewrite Erow, Ecol in Hs. apply T6; apply Hs; lia. }
           split; [exact Hqt|]. cbn [fst snd].
           rewrite S4, T4. rewrite (@nth_map_lt _ _ _ _ _ _ qid) by (apply index_of_lt, Hqt). rewrite nth_index_of by exact Hqt.
           rewrite (@nth_map_lt _ _ _ _ _ _ qid) by lia. apply Hblk. }
      cbn [rbind fst]. eexists. split; [reflexivity|].
      assert (map (fun k => nth k (bmaps sb) []) (seq 0 (length (bmaps sb))) = bmaps sb) as -> by apply (gather_seq [] (bmaps sb)).
      set (data := fold_left _ (bmaps sb) _).
      assert (length data = length (allowed ls')) as Ldata.
      { unfold data. rewrite fold_scatter_length, repeat_length, (wf_data Hwf). change (elegs t) with ls.
        symmetry. apply allowed_perm_length. rewrite Lls. exact Hp. }
      assert (forall jx, In jx (allowed ls') -> nth (pos ls' jx) data r0 = nth (pos ls (unperm 0 perm jx)) (bdata t) r0) as Hdata.
      { intros jx Hj. unfold data. rewrite (@scatter_parts _ D r0 (pos ls' jx) (length (allowed ls'))).
        - destruct (in_dec Nat.eq_dec (pos ls' jx) (concat (bmaps sb))) as [_|N].
          + unfold D. apply (nth_allowed (fun ix => nth (pos ls (unperm 0 perm ix)) (bdata t) r0) Hj).
          + exfalso. apply N. apply (Permutation_in _ (Permutation_sym Hpart)). apply in_seq. split; [lia|]. apply pos_lt, Hj.
        - unfold data in Ldata. rewrite fold_scatter_length in Ldata. exact Ldata.
        - intros ps x Hps Hx. assert (In x (concat (bmaps sb))) as Hi by (apply in_concat; exists ps; auto).
          apply (Permutation_in _ Hpart) in Hi. apply in_seq in Hi. lia.
        - intros ps Hps. rewrite S4 in Hps. apply in_map_iff in Hps. destruct Hps as (q & <- & _). apply NoDup_block, Hseq. }
      clearbody data.
      assert (nuniq perm = seq 0 n) as Enu by (apply nuniq_seq; intros i; apply (@is_perm_In _ _ i Hp)).
      assert (map (fun o => map (fun i => nth i (map (fun i => nindex i perm) (nuniq perm)) 0) o) (bord t) = map (map (fun i => nindex i perm)) (bord t)) as Eord.
      { apply map_ext_in. intros o Ho. apply map_ext_in. intros i Hi. rewrite Enu. apply nth_map_seq. apply (Hio o); assumption. }
      rewrite Eord. set (u := BST data pcs pfs (map (map (fun i => nindex i perm)) (bord t))).
      assert (elegs u = ls') as Eu by exact Elegs.
      assert (concat (bord u) = map (fun i => nindex i perm) (concat (bord t))) as Econ by (unfold u; cbn [bord]; symmetry; apply concat_map).
      assert (is_perm n (concat (bord u))) as Hpu.
      { rewrite Econ. apply is_perm_intro; [rewrite map_length; apply is_perm_length, Hord | | ].
        - apply NoDup_map_in; [|eapply is_perm_NoDup, Hord]. intros i j Hi Hj E.
          apply (@is_perm_In _ _ i Hord) in Hi. apply (@is_perm_In _ _ j Hord) in Hj.
          rewrite <- (@nth_index_of _ Nat.eq_dec i perm 0), E by (apply (@is_perm_In _ _ i Hp), Hi).
          apply nth_index_of, (@is_perm_In _ _ j Hp), Hj.
        - intros i Hi. apply in_map_iff in Hi. destruct Hi as (j & <- & Hj). rewrite <- Lp. apply index_of_lt.
          apply (@is_perm_In _ _ j Hp), (@is_perm_In _ _ j Hord), Hj. }
      split; [|split; [reflexivity|]; split; [reflexivity|]; split; [reflexivity|]].
      { unfold wf_bst. rewrite Eu. split; [unfold u; cbn; congruence|]. split; [apply (all_ok_gather (wf_ok Hwf))|].
        split; [exact Ldata|]. split; [unfold u; cbn [bcs]; rewrite Lpcs; exact Hpu|].
        intros o Ho. unfold u in Ho. cbn [bord] in Ho. apply in_map_iff in Ho. destruct Ho as (o' & <- & Ho'). destruct Hwf as (_ & _ & _ & _ & W5).
        specialize (W5 _ Ho'). destruct o'; [congruence | discriminate]. }
      assert (forall ix, valid ix (ldims ls') -> entry ls' data ix = entry ls (bdata t) (unperm 0 perm ix)) as Hentry.
      { intros ix Hix. apply entry_charge_perm; [rewrite Lls; exact Hp | exact Hdata | exact Hix]. }
      rewrite Eu. split; [exact Hentry|].
      assert (ldims ls' = gather 0 (ldims ls) perm) as Edims by (apply ldims_gather; intros i Hi; rewrite Lls; apply (@is_perm_In _ _ i Hp), Hi).
      assert (map (fun o => gather 0 (ldims ls') o) (bord u) = map (fun o => gather 0 (ldims ls) o) (bord t)) as Egs2.
      { unfold u. cbn [bord]. rewrite map_map. apply map_ext_in. intros o Ho. unfold gather at 1. rewrite map_map. apply map_ext_in. intros i Hi.
        assert (In i perm) as Hip by (apply (@is_perm_In _ _ i Hp), (Hio o); assumption).
        rewrite Edims, nth_gather by (apply index_of_lt, Hip). rewrite nth_index_of by exact Hip. reflexivity. }
      split.
      + unfold dense_of. cbn [shape]. rewrite Eu. change (elegs t) with ls. rewrite Egs2. reflexivity.
      + intros I HI. unfold dense_of in *. cbn [shape elt] in *. rewrite Eu in *. change (elegs t) with ls. rewrite Egs2 in *.
        set (v := split_index _ I). cbn [bdata].
        assert (length v = n) as Lv.
        { unfold v. rewrite split_index_length by (apply valid_length in HI; rewrite HI; apply map_length).
          change (fun o => gather 0 (ldims ls) o) with (gather 0 (ldims ls)). rewrite <- gather_concat, gather_length. apply is_perm_length, Hord. }
        unfold u at 1. cbn [bdata]. rewrite Hentry.
        * f_equal. rewrite Econ. apply (@list_ext _ _ _ 0); [rewrite !unperm_length, (is_perm_length Hord); exact Lp|].
          rewrite unperm_length, Lp. intros i Hi.
          assert (In i perm) as Hip by (apply (@is_perm_In _ _ i Hp), Hi).
          rewrite nth_unperm by lia. rewrite nth_unperm by (rewrite map_length, (is_perm_length Hord), <- Lp; apply index_of_lt, Hip).
          rewrite nth_unperm by (rewrite (is_perm_length Hord); exact Hi). f_equal.
          apply (@index_of_map_inj _ _ Nat.eq_dec Nat.eq_dec (fun i => nindex i perm)). intros j Hj E.
          assert (In j perm) as Hjp by (apply (@is_perm_In _ _ j Hp), (@is_perm_In _ _ j Hord), Hj).
          rewrite <- (@nth_index_of _ Nat.eq_dec j perm 0 Hjp), E. apply nth_index_of, Hip.
        * apply valid_unperm; [rewrite ldims_length, Lls'; exact Hpu|].
          unfold v. rewrite <- Egs2 in HI |- *. apply split_index_valid in HI.
          change (fun o => gather 0 (ldims ls') o) with (gather 0 (ldims ls')) in *. rewrite <- gather_concat in HI. exact HI.
  Qed.
End Conv.
