(** * BstMain: statements about [todense], [fromdense] and the operations in terms of each other *)
From Coq Require Import Permutation.
From Verif Require Import Prelude Algebra Tensor TensorFacts Res Charge ChargeFacts BlockSparse BlockSpec BstSpec ListFacts BlockFacts BlockDegen BlockReduce BlockMaps BlockTr BlockPart BstFacts BstConv BstDot BstTensordot BstOps.
Set Implicit Arguments.
Unset Strict Implicit.

Section Main.
  Context {G : chg} {K : csr}.
  Notation bst := (bst G K).
  Implicit Types (t u : bst) (ls : list (leg G)).

  Lemma todense_eq t d : wf_bst t -> bord t <> [] -> todense t = Ok d -> teq d (dense_of t).
  Proof. intros W N E. destruct (todense_spec W N) as (d' & E' & H). congruence. Qed.

  (** ** C26 *)
  Lemma binit_spec lim (init : nat -> list K) ixs : 0 < lim -> (forall n, length (init n) = n) -> ixs <> [] ->
    (forall i, In i ixs -> wf_index i) ->
    exists t, binit lim init ixs = Ok t /\ wf_bst t /\ bdata t = init (length (allowed (index_legs ixs))) /\
      length (bdata t) = length (allowed (index_legs ixs)).
  Proof.
    intros Hlim Hinit Hne Hix. destruct (@index_flat G ixs Hix) as (I1 & I2 & I3 & I4).
    assert (flat_map fst ixs <> []) as Hn.
    { destruct ixs as [|i r]; [congruence|]. destruct (Hix i (or_introl eq_refl)) as (_ & N & _). cbn [flat_map].
      destruct (fst i); [congruence | discriminate]. }
    unfold binit. rewrite (@num_nonzero_spec G lim Hlim _ _ I2 I1 Hn), I3. cbn [rbind]. eexists. split; [reflexivity|].
    set (t := BST _ _ _ _). assert (elegs t = index_legs ixs) as El by exact I3.
    split; [|split; [reflexivity|apply Hinit]]. unfold wf_bst. rewrite El. unfold t. cbn [bcs bfs bdata bord].
    split; [exact I1|]. split; [exact I2|]. split; [apply Hinit|]. split.
    - rewrite groups_from_concat. assert (list_sum (map (fun i : list (bc G) * list bool => length (fst i)) ixs) = length (flat_map fst ixs)) as ->; [|apply is_perm_seq].
      rewrite flat_map_concat_map, <- list_sum_lengths, map_map. reflexivity.
    - intros o Ho. apply groups_from_In in Ho. destruct Ho as (n & b & Hn' & ->). apply in_map_iff in Hn'. destruct Hn' as (i & <- & Hi).
      destruct (Hix i Hi) as (_ & N & _). destruct (fst i); [congruence | discriminate].
  Qed.

  Lemma split_single dims I : valid I dims -> split_index (map (fun d => [d]) dims) I = I.
  Proof.
    revert I. induction dims as [|d r IH]; intros [|i I] H; try (inversion H; fail); [reflexivity|]. apply valid_cons_inv in H. destruct H as [H1 H2].
    cbn [map split_index]. rewrite IH by exact H2. assert (unravel [d] i = [i]) as ->; [|reflexivity].
    assert (valid [i] [d]) as V by (constructor; [exact H1 | constructor]). rewrite <- (unravel_ravel V). f_equal. cbn. lia.
  Qed.
  Lemma stored_rowmajor t d : wf_bst t -> bord t = map (fun i => [i]) (seq 0 (length (bcs t))) -> bord t <> [] -> todense t = Ok d ->
    bdata t = map (elt d) (allowed (elegs t)) /\
    (forall I, valid I (shape d) -> ~ In I (allowed (elegs t)) -> elt d I = r0).
  Proof.
    intros W Hb Hne E. pose proof (todense_eq W Hne E) as [Hs He].
    assert (map (gather 0 (ldims (elegs t))) (bord t) = map (fun x => [x]) (ldims (elegs t))) as Egs.
    { transitivity (map (fun x => [x]) (gather 0 (ldims (elegs t)) (seq 0 (length (ldims (elegs t)))))); [|rewrite gather_seq; reflexivity].
      rewrite Hb, (wf_dims_length W). unfold gather. rewrite !map_map. reflexivity. }
    assert (concat (bord t) = seq 0 (length (bcs t))) as Ec by (rewrite Hb, (concat_single (fun i => i)); apply map_id).
    assert (forall I, valid I (ldims (elegs t)) -> elt (dense_of t) I = entry (elegs t) (bdata t) I) as Hd.
    { intros I HI. rewrite dense_elt, Egs, Ec, split_single by exact HI. rewrite unperm_seq; [reflexivity|].
      rewrite (valid_length HI), (wf_dims_length W). reflexivity. }
    assert (shape (dense_of t) = ldims (elegs t)) as Esh.
    { rewrite dense_shape, Egs, map_map. rewrite <- map_id. apply map_ext. intros x. cbn. lia. }
    split.
    - apply (@data_ext G K (elegs t)); [apply wf_data, W | rewrite map_length; reflexivity|]. intros ix Hix.
      rewrite (entry_allowed (map _ _)) by exact Hix. rewrite (@nth_allowed _ _ (elegs t) (elt d) _ Hix).
      apply In_sector in Hix. destruct Hix as [Hv _]. rewrite He by (rewrite Hs, Esh; exact Hv). symmetry. apply Hd, Hv.
    - intros I HI Hn. rewrite He by exact HI. rewrite Hs, Esh in HI. rewrite Hd by exact HI. apply entry_zero. intros Ec'. apply Hn, In_sector. auto.
  Qed.

  (** ** C27 *)
  Lemma todense_forbidden t d I : wf_bst t -> bord t <> [] -> todense t = Ok d -> valid I (shape d) -> dense_charge t I <> qid -> elt d I = r0.
  Proof.
    intros W Hne E HI Hq. pose proof (todense_eq W Hne E) as [Hs He]. rewrite He by exact HI. rewrite dense_elt. apply entry_zero.
    rewrite charge_of_unperm; [exact Hq | rewrite (wf_legs_length W); apply wf_perm, W|].
    rewrite split_index_length; [rewrite <- gather_concat, gather_length, (wf_legs_length W); apply is_perm_length, wf_perm, W|].
    rewrite Hs, dense_shape in HI. apply valid_length in HI. rewrite map_length in HI. exact HI.
  Qed.

  Lemma fromdense_todense (ixs : list (index (G := G))) (a : tensor K) t d : ixs <> [] -> (forall i, In i ixs -> wf_index i) ->
    shape a = map (fun i => idim i) ixs ->
    (forall I, valid I (shape a) -> charge_of (index_legs ixs) (split_index (index_dims ixs) I) <> qid -> elt a I = r0) ->
    fromdense ixs a = Ok t -> todense t = Ok d -> teq d a.
  Proof.
    intros Hne Hix Hs Hz Et Ed. destruct (fromdense_spec Hne Hix Hs) as (t' & E' & W & _ & _ & Hb & _ & Ht).
    assert (t' = t) as -> by congruence.
    assert (bord t <> []) as Nb by (rewrite Hb; destruct ixs; [congruence | discriminate]).
    eapply teq_trans; [apply (todense_eq W Nb Ed)|]. eapply teq_trans; [exact Ht|]. split; [reflexivity|].
    intros I HI. cbn [elt]. destruct (qdec _ _) as [_|N]; [reflexivity|]. symmetry. apply Hz; assumption.
  Qed.

  Lemma sparse_shape_wf t : wf_bst t -> bord t <> [] -> sparse_shape t <> [] /\ (forall i, In i (sparse_shape t) -> wf_index i) /\
    map (fun i => idim i) (sparse_shape t) = shape (dense_of t) /\
    index_legs (sparse_shape t) = gather ([], false) (elegs t) (concat (bord t)) /\
    index_dims (sparse_shape t) = map (gather 0 (ldims (elegs t))) (bord t).
  Proof.
    intros W Hne.
    assert (forall o i, In o (bord t) -> In i o -> i < length (bcs t)) as Hb.
    { intros o i Ho Hi. apply (@is_perm_In _ _ i (wf_perm W)). apply in_concat. exists o. auto. }
    assert (index_dims (sparse_shape t) = map (gather 0 (ldims (elegs t))) (bord t)) as Ed.
    { unfold index_dims, sparse_shape. rewrite map_map. apply map_ext_in. intros o Ho. cbn [fst]. rewrite (wf_dims W). unfold edims, gather.
      rewrite map_map. apply map_ext_in. intros i Hi. symmetry. apply nth_map_lt, (Hb o i Ho Hi). }
    split; [unfold sparse_shape; destruct (bord t); [congruence | discriminate]|]. split; [|split; [|split]].
    - intros i Hi. unfold sparse_shape in Hi. apply in_map_iff in Hi. destruct Hi as (o & <- & Ho). split; [cbn [fst snd]; rewrite !gather_length; reflexivity|].
      split; [|apply all_ok_gather, wf_ok, W]. cbn [fst]. destruct W as (_ & _ & _ & _ & W). specialize (W o Ho). destruct o; [congruence | discriminate].
    - rewrite dense_shape, <- Ed. unfold index_dims. rewrite map_map. reflexivity.
    - unfold index_legs, sparse_shape. clear Ed Hne. induction (bord t) as [|o r IH]; [reflexivity|]. cbn [map flat_map concat fst snd]. rewrite gather_app. f_equal.
      + apply legs_gather; [apply wf_len, W|]. intros i Hi. apply (Hb o i (or_introl eq_refl) Hi).
      + apply IH. intros o' i Ho' Hi. apply (Hb o' i (or_intror Ho') Hi).
    - exact Ed.
  Qed.

  Lemma todense_fromdense t d : wf_bst t -> bord t <> [] -> todense t = Ok d ->
    exists t', fromdense (sparse_shape t) d = Ok t' /\ wf_bst t' /\
      (exists d', todense t' = Ok d' /\ teq d' d) /\
      (concat (bord t) = seq 0 (length (bcs t)) -> t' = t).
  Proof.
    intros W Hne E. pose proof (todense_eq W Hne E) as [Hs He]. destruct (sparse_shape_wf W Hne) as (S1 & S2 & S3 & S4 & S5).
    assert (shape d = map (fun i => idim i) (sparse_shape t)) as Hsh by (rewrite S3; exact Hs).
    destruct (fromdense_spec S1 S2 Hsh) as (t' & Et & W' & C1 & C2 & C3 & C4 & C5). exists t'. split; [exact Et|]. split; [exact W'|].
    assert (bord t' <> []) as Nb by (rewrite C3; destruct (sparse_shape t); [congruence | discriminate]).
    assert (teq (dense_of t') d) as Hd.
    { eapply teq_trans; [exact C5|]. split; [reflexivity|]. intros I HI. cbn [elt]. destruct (qdec _ _) as [_|N]; [reflexivity|].
      symmetry. rewrite S4, S5 in N. apply (todense_forbidden W Hne E HI N). }
    split.
    - destruct (todense_spec W' Nb) as (d' & Ed' & Hd'). exists d'. split; [exact Ed'|]. eapply teq_trans; [exact Hd' | exact Hd].
    - intros Hseq.
      assert (bcs t' = bcs t) as Ecs.
      { rewrite C1. transitivity (gather (Raw []) (bcs t) (concat (bord t))); [|rewrite Hseq; apply gather_seq].
        unfold sparse_shape. rewrite flat_map_map, flat_map_concat_map. cbn [fst]. symmetry. apply gather_concat. }
      assert (bfs t' = bfs t) as Efs.
      { rewrite C2. transitivity (gather false (bfs t) (concat (bord t))); [|rewrite Hseq, (wf_len W); apply gather_seq].
        unfold sparse_shape. rewrite flat_map_map, flat_map_concat_map. cbn [snd]. symmetry. apply gather_concat. }
      assert (bord t' = bord t) as Eb.
      { apply grouping_eq; [|rewrite C4, Hseq, Ecs; reflexivity]. rewrite C3. unfold sparse_shape. rewrite map_map. cbn [fst].
        assert (map (fun x => length (gather (Raw []) (bcs t) x)) (bord t) = map (@length nat) (bord t)) as -> by (apply map_ext; intros; apply gather_length).
        clear. generalize 0. induction (bord t) as [|o r IH]; intros n; [reflexivity|]. cbn [map groups_from]. rewrite seq_length, IH. reflexivity. }
      assert (elegs t' = elegs t) as El by (unfold elegs; rewrite Ecs, Efs; reflexivity).
      assert (bdata t' = bdata t) as Edat.
      { apply (@data_ext G K (elegs t)); [rewrite <- El; apply wf_data, W' | apply wf_data, W|]. intros ix Hix.
        apply In_sector in Hix. destruct Hix as [Hv _].
        set (gs := map (gather 0 (ldims (elegs t))) (bord t)). set (I := unravel (map nprod gs) (ravel (concat gs) ix)).
        assert (concat gs = ldims (elegs t)) as Egs.
        { unfold gs. rewrite <- gather_concat, Hseq, <- (wf_dims_length W). apply gather_seq. }
        assert (ravel (concat gs) ix < nprod (map nprod gs)) as Hlt by (rewrite <- nprod_concat, Egs; apply ravel_lt, Hv).
        assert (valid I (map nprod gs)) as HI by (apply unravel_valid, Hlt).
        assert (split_index gs I = ix) as Esp.
        { rewrite <- unravel_split_index by exact HI. unfold I. rewrite ravel_unravel by exact Hlt. rewrite Egs. apply unravel_ravel, Hv. }
        assert (forall v : bst, elegs v = elegs t -> bord v = bord t -> elt (dense_of v) I = entry (elegs t) (bdata v) ix) as Hv'.
        { intros v E1 E2. rewrite dense_elt, E1, E2. fold gs. rewrite Esp, Hseq. rewrite unperm_seq; [reflexivity|]. rewrite (valid_length Hv), (wf_dims_length W). reflexivity. }
        rewrite <- (Hv' t' El Eb), <- (Hv' t eq_refl eq_refl). destruct Hd as [Hd1 Hd2].
        rewrite Hd2 by (rewrite dense_shape, El, Eb; exact HI). apply He. rewrite Hs, dense_shape. exact HI. }
      destruct t', t. cbn in *. congruence.
  Qed.

  (** ** C28 *)
  Lemma blocks_main lim blim junk (cs : list (bc G)) fs p order : 0 < lim -> (forall c, In c cs -> bc_ok c) -> length cs = length fs -> cs <> [] ->
    p <= length cs -> is_perm (length cs) order ->
    exists B, tr_blocks lim blim junk cs fs p order = Ok B /\
      NoDup (rep (bqs B)) /\
      (forall q, sector (row_legs (legs cs fs) order p) q <> [] -> sector (col_legs (legs cs fs) order p) (qinv q) <> [] -> In q (rep (bqs B))) /\
      bmaps B = map (block (legs cs fs) order p) (rep (bqs B)) /\
      bdims B = map (block_shape (legs cs fs) order p) (rep (bqs B)) /\
      Permutation (concat (bmaps B)) (seq 0 (length (allowed (legs cs fs)))).
  Proof.
    intros Hlim Hok Hl Hne Hp Ho. destruct (@tr_blocks_spec G lim blim junk Hlim cs fs p order Hok Hl Hne Hp Ho) as (B & E & HB).
    pose proof (legs_length Hl) as Ll.
    assert (Permutation (concat (bmaps B)) (seq 0 (length (allowed (legs cs fs))))) as Hpart by (apply (@blocks_partition _ _ order p); [rewrite Ll; exact Ho | rewrite Ll; exact Hp | exact HB]).
    destruct HB as (_ & _ & H3 & H4 & H5 & H6 & _).
    exists B. repeat (split; [assumption|]). exact Hpart.
  Qed.

  (** ** C29 *)
  Lemma transpose_contiguous lim blim junk t p d : 0 < lim -> wf_bst t -> bord t <> [] -> is_perm (ndim t) p -> todense t = Ok d ->
    exists s u ds du, btranspose t p = Ok s /\ contiguous lim blim junk s (flat_order s) = Ok u /\ todense s = Ok ds /\ todense u = Ok du /\
      wf_bst s /\ wf_bst u /\ bdata s = bdata t /\ flat_order u = seq 0 (length (bcs t)) /\
      teq ds (transpose d p) /\ teq du (transpose d p).
  Proof.
    intros Hlim W Hne Hp E. destruct (btranspose_spec W Hp) as (s & Es & Ws & A1 & A2 & A3 & A4 & A5).
    assert (is_perm (length (bcs s)) (flat_order s)) as Pf by apply (wf_perm Ws).
    destruct (@contiguous_spec G K lim blim junk Hlim s (flat_order s) Ws Pf) as (u & Eu & Wu & B1 & B2 & B3 & _ & B5).
    assert (bord s <> []) as Ns.
    { rewrite A4. apply is_perm_length in Hp. unfold ndim in Hp. destruct (bord t); [congruence|]. destruct p; [discriminate | discriminate]. }
    assert (bord u <> []) as Nu by (rewrite B3; destruct (bord s); [congruence | discriminate]).
    destruct (todense_spec Ws Ns) as (ds & Eds & Hds). destruct (todense_spec Wu Nu) as (du & Edu & Hdu).
    exists s, u, ds, du. do 4 (split; [assumption|]). split; [exact Ws|]. split; [exact Wu|]. split; [exact A1|].
    pose proof (todense_eq W Hne E) as Hd.
    assert (teq (dense_of s) (transpose d p)) as Hsd.
    { eapply teq_trans; [exact A5|]. apply teq_transpose; [unfold rank; rewrite dense_shape, !map_length; exact Hp | apply teq_sym, Hd]. }
    split; [|split].
    - unfold flat_order at 1. rewrite B3, <- concat_map. fold (flat_order s). rewrite <- A2.
      apply (@list_ext _ _ _ 0); [rewrite map_length, seq_length; apply is_perm_length, Pf|]. intros i Hi. rewrite map_length in Hi.
      rewrite (@nth_map_lt _ _ _ _ _ _ 0) by exact Hi. rewrite index_of_nth by (apply (is_perm_NoDup Pf) || exact Hi). rewrite (is_perm_length Pf) in Hi. rewrite seq_nth by exact Hi. reflexivity.
    - eapply teq_trans; [exact Hds | exact Hsd].
    - eapply teq_trans; [exact Hdu|]. eapply teq_trans; [exact B5 | exact Hsd].
  Qed.

  (** ** C30 *)
  Lemma btensordot_dense lim blim junk t1 t2 axes1 axes2 d1 d2 : 0 < lim -> wf_bst t1 -> wf_bst t2 -> bord t1 <> [] -> bord t2 <> [] ->
    compatible t1 t2 axes1 axes2 -> todense t1 = Ok d1 -> todense t2 = Ok d2 ->
    exists t, btensordot lim blim junk t1 t2 axes1 axes2 = Ok t /\ wf_bst t /\
      (bord t <> [] -> exists d, todense t = Ok d /\ teq d (tensordot d1 d2 axes1 axes2)) /\
      (bord t = [] -> bdata t = [elt (tensordot d1 d2 axes1 axes2) []]).
  Proof.
    intros Hlim W1 W2 N1 N2 HC E1 E2.
    assert (bord t1 ++ bord t2 <> []) as Nn by (destruct (bord t1); [congruence | discriminate]).
    destruct (@btensordot_spec G K lim blim junk Hlim t1 t2 axes1 axes2 W1 W2 HC Nn) as (t & E & W & Ht). exists t. split; [exact E|]. split; [exact W|].
    assert (teq (dense_of t) (tensordot d1 d2 axes1 axes2)) as Hd.
    { eapply teq_trans; [exact Ht|]. destruct HC as (C1 & C2 & C3 & C4 & C5 & C6 & _). apply teq_sym.
      pose proof (todense_eq W1 N1 E1) as T1. pose proof (todense_eq W2 N2 E2) as T2.
      apply teq_tensordot; try assumption.
      - intros i Hi. destruct T1 as [Ts _]. unfold rank. rewrite Ts, dense_shape, !map_length. apply C4, Hi.
      - intros i Hi. destruct T2 as [Ts _]. unfold rank. rewrite Ts, dense_shape, !map_length. apply C5, Hi.
      - destruct T1 as [Ts1 _]. destruct T2 as [Ts2 _]. rewrite Ts1, Ts2, <- (wf_shape W1), <- (wf_shape W2). exact C6. }
    split.
    - intros Nt. destruct (todense_spec W Nt) as (d & Ed & Hdd). exists d. split; [exact Ed|]. eapply teq_trans; [exact Hdd | exact Hd].
    - intros Nt. destruct Hd as [Hs He]. pose proof (wf_data W) as Ld. pose proof (proj1 (wf_nil W) Nt) as Nc.
      assert (elegs t = []) as El by (unfold elegs; rewrite Nc; reflexivity). rewrite El, allowed_nil in Ld.
      destruct (bdata t) as [|x [|y r]] eqn:Edat; try discriminate. f_equal.
      rewrite <- (He []) by (rewrite dense_shape, Nt; constructor). rewrite dense_elt, El, Nt, Edat. cbn [map concat split_index]. symmetry. apply entry_nil.
  Qed.

  Lemma btensordot_ok lim blim junk t1 t2 axes1 axes2 t : wf_bst t1 -> wf_bst t2 -> NoDup axes1 -> NoDup axes2 ->
    gather 0 (bshape t1) axes1 = gather 0 (bshape t2) axes2 ->
    btensordot lim blim junk t1 t2 axes1 axes2 = Ok t -> compatible t1 t2 axes1 axes2.
  Proof.
    intros W1 W2 Nd1 Nd2 Hg E. unfold btensordot in E. destruct (Nat.eqb_spec (length axes1) (length axes2)) as [L|]; [|discriminate]. cbn [negb] in E.
    destruct ((ndim t1 <? length axes1) || _); [discriminate|]. destruct (Nat.eqb_spec (length axes1) 0) as [Z|NZ].
    { assert (axes1 = []) as -> by (apply length_zero_iff_nil, Z). assert (axes2 = []) as -> by (apply length_zero_iff_nil; lia).
      split; [reflexivity|]. split; [constructor|]. split; [constructor|]. split; [intros i []|]. split; [intros i []|]. repeat split. }
    destruct (forallb (fun i => i <? ndim t1) axes1 && forallb (fun i => i <? ndim t2) axes2) eqn:Er; [|discriminate]. cbn [negb] in E.
    apply andb_true_iff in Er. destruct Er as [R1 R2]. rewrite forallb_forall in R1, R2.
    cbv zeta in E. fold (con_legs t1 axes1) in E. fold (con_legs t2 axes2) in E.
    destruct (Nat.eqb_spec (length (gather (Raw []) (bcs t1) (con_legs t1 axes1))) (length (gather (Raw []) (bcs t2) (con_legs t2 axes2)))) as [Lc|]; [|discriminate].
    rewrite !gather_length in Lc. cbn [negb] in E.
    destruct (leqb Bool.bool_dec (gather false (bfs t1) (con_legs t1 axes1)) (map negb (gather false (bfs t2) (con_legs t2 axes2)))) eqn:Ef; [|discriminate]. cbn [negb] in E.
    destruct (forallb (fun cc => charge_equal (fst cc) (snd cc)) (combine (gather (Raw []) (bcs t1) (con_legs t1 axes1)) (gather (Raw []) (bcs t2) (con_legs t2 axes2)))) eqn:Ec; [|discriminate].
    split; [exact L|]. split; [exact Nd1|]. split; [exact Nd2|]. split; [intros i Hi; apply Nat.ltb_lt, R1, Hi|]. split; [intros i Hi; apply Nat.ltb_lt, R2, Hi|].
    split; [exact Hg|]. split; [exact Lc|]. split; [apply leqb_true in Ef; exact Ef | exact Ec].
  Qed.

  Lemma btensordot_sound lim blim junk t1 t2 axes1 axes2 d1 d2 t : 0 < lim -> wf_bst t1 -> wf_bst t2 -> bord t1 <> [] -> bord t2 <> [] ->
    NoDup axes1 -> NoDup axes2 -> gather 0 (bshape t1) axes1 = gather 0 (bshape t2) axes2 ->
    todense t1 = Ok d1 -> todense t2 = Ok d2 -> btensordot lim blim junk t1 t2 axes1 axes2 = Ok t ->
    wf_bst t /\ (bord t <> [] -> exists d, todense t = Ok d /\ teq d (tensordot d1 d2 axes1 axes2)) /\
    (bord t = [] -> bdata t = [elt (tensordot d1 d2 axes1 axes2) []]).
  Proof.
    intros Hlim W1 W2 N1 N2 Nd1 Nd2 Hg E1 E2 E. pose proof (btensordot_ok W1 W2 Nd1 Nd2 Hg E) as HC.
    destruct (@btensordot_dense lim blim junk t1 t2 axes1 axes2 d1 d2 Hlim W1 W2 N1 N2 HC E1 E2) as (t' & E' & H). assert (t' = t) as -> by congruence. exact H.
  Qed.

  (** ** C31 *)
  Lemma reshape_dense t ns u d : wf_bst t -> bord t <> [] -> ns <> [] -> breshape t ns = Ok u -> todense t = Ok d ->
    wf_bst u /\ bdata u = bdata t /\ bcs u = bcs t /\ bfs u = bfs t /\ flat_order u = flat_order t /\
    exists d', todense u = Ok d' /\ teq d' (reshape d ns).
  Proof.
    intros W Hne Nns E Ed. destruct (breshape_sound W (fun H => False_ind _ (Nns H)) E) as (W' & A1 & A2 & A3 & A4 & A5 & A6 & A7).
    do 5 (split; [assumption|]).
    assert (bord u <> []) as Nu by (intros E0; apply Nns; rewrite <- A5; unfold bshape; rewrite E0; reflexivity).
    destruct (todense_spec W' Nu) as (d' & Ed' & Hd'). exists d'. split; [exact Ed'|]. eapply teq_trans; [exact Hd'|]. eapply teq_trans; [exact A7|].
    apply teq_sym. pose proof (todense_eq W Hne Ed) as Hd. apply teq_reshape; [|exact Hd].
    destruct Hd as [Hs _]. rewrite Hs, <- (wf_shape W). rewrite <- A5. rewrite (wf_nprod W), (wf_nprod W'). unfold elegs. rewrite A2, A3. reflexivity.
  Qed.
  Lemma reshape_succeeds t ns : wf_bst t -> (forall d, In d (flat_dims t) -> 0 < d) -> ns <> [] ->
    ((exists u, breshape t ns = Ok u) <-> groupable ns (flat_dims t)).
  Proof.
    intros W Hpos Nns. split; [|apply breshape_complete; assumption]. intros (u & E).
    apply (breshape_sound W (fun H => False_ind _ (Nns H)) E).
  Qed.

  (** ** C46 *)
  Lemma bzip_dense lim blim junk (op : K -> K -> K) t u t' u' r dt du : 0 < lim -> wf_bst t -> wf_bst u -> bord t <> [] -> bord u <> [] -> op r0 r0 = r0 ->
    todense t = Ok dt -> todense u = Ok du -> bzip lim blim junk op t u = Ok (t', u', r) ->
    wf_bst r /\ exists dt' du' dr, todense t' = Ok dt' /\ todense u' = Ok du' /\ todense r = Ok dr /\ teq dt' dt /\ teq du' du /\
      teq dr (Tensor (shape dt) (fun I => op (elt dt I) (elt du I))).
  Proof.
    intros Hlim Wt Wu Nt Nu Hop Et Eu E.
    assert (protection t u = true) as Hp by (unfold bzip in E; destruct (protection t u); [reflexivity | discriminate]).
    destruct (@bzip_spec G K lim blim junk op t u Hlim Wt Wu Hp Hop) as (t1 & u1 & r1 & E1 & Wt' & Wu' & Wr & Dt & Du & Dr).
    rewrite E in E1. injection E1 as <- <- <-. split; [exact Wr|].
    assert (forall v w : bst, teq (dense_of v) (dense_of w) -> bord w <> [] -> bord v <> []) as Hne.
    { intros v w [Hs _] Hw Hv. rewrite !dense_shape, Hv in Hs. destruct (bord w); [congruence | discriminate]. }
    assert (bord r <> []) as Nr.
    { destruct Dr as [Hs _]. cbn [shape] in Hs. rewrite !dense_shape in Hs. intros Er. rewrite Er in Hs. destruct (bord t); [congruence | discriminate]. }
    destruct (todense_spec Wt' (Hne t' t Dt Nt)) as (dt' & Edt & Hdt). destruct (todense_spec Wu' (Hne u' u Du Nu)) as (du' & Edu & Hdu).
    destruct (todense_spec Wr Nr) as (dr & Edr & Hdr). exists dt', du', dr. do 3 (split; [assumption|]).
    pose proof (todense_eq Wt Nt Et) as Tt. pose proof (todense_eq Wu Nu Eu) as Tu.
    split; [eapply teq_trans; [exact Hdt|]; eapply teq_trans; [exact Dt|]; apply teq_sym, Tt|].
    split; [eapply teq_trans; [exact Hdu|]; eapply teq_trans; [exact Du|]; apply teq_sym, Tu|].
    eapply teq_trans; [exact Hdr|]. eapply teq_trans; [exact Dr|]. destruct Tt as [S1 V1]. destruct Tu as [S2 V2]. split; [cbn [shape]; symmetry; exact S1|].
    intros I HI. cbn [shape elt] in *. rewrite V1 by (rewrite S1; exact HI). rewrite V2; [reflexivity|]. rewrite S2.
    assert (shape (dense_of u) = shape (dense_of t)) as ->; [|exact HI].
    rewrite <- (wf_shape Wt), <- (wf_shape Wu). unfold protection in Hp. apply andb_true_iff in Hp. destruct Hp as [Hp _]. apply andb_true_iff in Hp. destruct Hp as [Hp _].
    apply leqb_true in Hp. symmetry. exact Hp.
  Qed.
  Lemma bzip_succeeds lim blim junk (op : K -> K -> K) t u : 0 < lim -> wf_bst t -> wf_bst u -> op r0 r0 = r0 -> sparse_shape t = sparse_shape u -> length (bcs t) = length (bcs u) ->
    exists x, bzip lim blim junk op t u = Ok x.
  Proof.
    intros Hlim Wt Wu Hop Hs Hn.
    assert (protection t u = true) as Hp.
    { unfold protection. rewrite Hn, Nat.eqb_refl, andb_true_r, Hs. apply andb_true_iff. split.
      - apply leqb_true. assert (forall v : bst, wf_bst v -> bshape v = map (fun i => idim i) (sparse_shape v)) as H.
        { intros v W. unfold bshape, sparse_shape. rewrite map_map. apply map_ext_in. intros o Ho. unfold idim, edims. cbn [fst]. f_equal.
          unfold gather. rewrite map_map. apply map_ext_in. intros i Hi. apply nth_map_lt. apply (@is_perm_In _ _ i (wf_perm W)). apply in_concat. exists o. auto. }
        rewrite (H t Wt), (H u Wu), Hs. reflexivity.
      - apply forallb_forall. intros [i j] Hij. cbn [fst snd].
        assert (i = j) as <-.
        { clear - Hij. induction (sparse_shape u) as [|x r IH]; [destruct Hij|]. destruct Hij as [E|Hij]; [congruence | apply IH, Hij]. }
        unfold index_eq. rewrite Nat.eqb_refl. cbn [andb]. apply andb_true_iff. split; [|apply leqb_true; reflexivity].
        apply forallb_forall. intros [c c'] Hc. cbn [fst snd].
        assert (c = c') as <-.
        { clear - Hc. induction (fst i) as [|x r IH]; [destruct Hc|]. destruct Hc as [E|Hc]; [congruence | apply IH, Hc]. }
        apply andb_true_iff. split; apply leqb_true; reflexivity. }
    destruct (@bzip_spec G K lim blim junk op t u Hlim Wt Wu Hp Hop) as (t1 & u1 & r1 & E1 & _). eexists. exact E1.
  Qed.
  Lemma bmap_dense (f : K -> K) t d : wf_bst t -> bord t <> [] -> f r0 = r0 -> todense t = Ok d ->
    exists d', todense (bmap f t) = Ok d' /\ teq d' (Tensor (shape d) (fun I => f (elt d I))).
  Proof.
    intros W Hne Hf E. destruct (bmap_spec W Hf) as [W' H]. pose proof (todense_eq W Hne E) as [Hs He].
    destruct (@todense_spec G K (bmap f t) W' Hne) as (d' & Ed & Hd). exists d'. split; [exact Ed|]. eapply teq_trans; [exact Hd|]. eapply teq_trans; [exact H|].
    split; [symmetry; exact Hs|]. intros I HI. cbn [shape elt] in *. rewrite He by (rewrite Hs; exact HI). reflexivity.
  Qed.
  Lemma bconj_dense (f : K -> K) t d : wf_bst t -> bord t <> [] -> f r0 = r0 -> todense t = Ok d ->
    exists d', todense (bconj f t) = Ok d' /\ teq d' (Tensor (shape d) (fun I => f (elt d I))).
  Proof.
    intros W Hne Hf E. destruct (bconj_spec W Hf) as [W' H]. pose proof (todense_eq W Hne E) as [Hs He].
    destruct (@todense_spec G K (bconj f t) W' Hne) as (d' & Ed & Hd). exists d'. split; [exact Ed|]. eapply teq_trans; [exact Hd|]. eapply teq_trans; [exact H|].
    split; [symmetry; exact Hs|]. intros I HI. cbn [shape elt] in *. rewrite He by (rewrite Hs; exact HI). reflexivity.
  Qed.

  Lemma todense_total t : wf_bst t -> bord t <> [] -> exists d, todense t = Ok d /\ teq d (dense_of t).
  Proof. apply todense_spec. Qed.
  Lemma fromdense_total (ixs : list (index (G := G))) (a : tensor K) : ixs <> [] -> (forall i, In i ixs -> wf_index i) -> shape a = map (fun i => idim i) ixs ->
    exists t, fromdense ixs a = Ok t /\ wf_bst t /\ bord t <> [].
  Proof.
    intros N H S. destruct (fromdense_spec N H S) as (t & E & W & _ & _ & Hb & _). exists t. split; [exact E|]. split; [exact W|].
    rewrite Hb. destruct ixs; [congruence | discriminate].
  Qed.
  Lemma contiguous_dense lim blim junk t perm : 0 < lim -> wf_bst t -> bord t <> [] -> is_perm (length (bcs t)) perm ->
    exists u d du, contiguous lim blim junk t perm = Ok u /\ wf_bst u /\ todense t = Ok d /\ todense u = Ok du /\ teq du d /\
      bcs u = gather (Raw []) (bcs t) perm /\ bfs u = gather false (bfs t) perm.
  Proof.
    intros Hlim W N Hp. destruct (@contiguous_spec G K lim blim junk Hlim t perm W Hp) as (u & Eu & Wu & B1 & B2 & B3 & _ & B5).
    assert (bord u <> []) as Nu by (rewrite B3; destruct (bord t); [congruence | discriminate]).
    destruct (todense_spec W N) as (d & Ed & Hd). destruct (todense_spec Wu Nu) as (du & Edu & Hdu). exists u, d, du.
    do 4 (split; [assumption|]). split; [|split; assumption]. eapply teq_trans; [exact Hdu|]. eapply teq_trans; [exact B5|]. apply teq_sym, Hd.
  Qed.
End Main.
