(** * BlockMaps: the block maps of the code are the blocks of BlockSpec.v *)
From Coq Require Import Sorting.Sorted Permutation.
From Verif Require Import Prelude Algebra Tensor TensorFacts Res Charge ChargeFacts BlockSparse BlockSpec ListFacts BlockFacts BlockDegen BlockReduce.
Set Implicit Arguments.
Unset Strict Implicit.

(** ** strides *)
Definition strides_of (dims : list nat) : list nat := map (fun i => nprod (skipn (S i) dims)) (seq 0 (length dims)).
Lemma strides_of_cons d ds : strides_of (d :: ds) = nprod ds :: strides_of ds.
Proof.
  unfold strides_of. cbn [length seq map skipn]. f_equal. rewrite <- seq_shift, map_map. reflexivity.
Qed.
Lemma strides_of_length dims : length (strides_of dims) = length dims.
Proof. unfold strides_of. rewrite map_length. apply seq_length. Qed.
Lemma dotp_strides dims ix : length ix = length dims -> dotp (strides_of dims) ix = ravel dims ix.
Proof.
  revert ix. induction dims as [|d ds IH]; intros [|i ix] H; cbn in H; try discriminate; [reflexivity|].
  rewrite strides_of_cons. change (nprod ds * i + dotp (strides_of ds) ix = ravel (d :: ds) (i :: ix)).
  rewrite IH by congruence. cbn. lia.
Qed.
Lemma dotp_nth st ix n : length st = n -> length ix = n ->
  dotp st ix = nsumf (fun k => nth k st 0 * nth k ix 0) (seq 0 n).
Proof.
  revert st ix. induction n as [|n IH]; intros [|s st] [|i ix] H1 H2; cbn in H1, H2; try discriminate; [reflexivity|].
  cbn [seq]. rewrite nsumf_cons. cbn [nth]. rewrite <- seq_shift, nsumf_map. cbn [nth].
  rewrite <- IH by congruence. reflexivity.
Qed.
Lemma dotp_unperm n st p v : is_perm n p -> length st = n -> length v = n ->
  dotp (gather 0 st p) v = dotp st (unperm 0 p v).
Proof.
  intros Hp H1 H2. assert (length p = n) as Lp by (apply is_perm_length, Hp).
  rewrite (@dotp_nth _ _ n) by (rewrite ?gather_length; assumption).
  rewrite (@dotp_nth _ _ n) by (rewrite ?unperm_length; assumption).
  set (f := fun k => nth k st 0 * nth (nindex k p) v 0).
  transitivity (nsumf f (seq 0 n)).
  - transitivity (nsumf f p); [|apply nsumf_perm, Hp].
    unfold nsumf. rewrite (@map_seq_nth _ _ f p 0), Lp. f_equal. apply map_ext_in. intros k Hk. apply in_seq in Hk.
    unfold f. rewrite nth_gather by lia. rewrite index_of_nth by (try apply (is_perm_NoDup Hp); lia). reflexivity.
  - apply nsumf_ext. intros k Hk. apply in_seq in Hk. unfold f. rewrite nth_unperm by lia. reflexivity.
Qed.
Lemma dotp_add st a b c n : length st = n -> length a = n -> length b = n -> length c = n ->
  (forall k, k < n -> nth k c 0 = nth k a 0 + nth k b 0) -> dotp st c = dotp st a + dotp st b.
Proof.
  intros H1 H2 H3 H4 H. rewrite !(@dotp_nth _ _ n) by assumption. rewrite <- nsumf_plus. apply nsumf_ext.
  intros k Hk. apply in_seq in Hk. rewrite H by lia. lia.
Qed.
Lemma dotp_zeros st n : dotp st (repeat 0 n) = 0.
Proof.
  unfold dotp. revert n. induction st as [|s st IH]; intros [|n]; cbn; try reflexivity.
  rewrite Nat.mul_0_r. cbn. apply IH.
Qed.
Lemma skipn_app_exact A (a b : list A) n : length a = n -> skipn n (a ++ b) = b.
Proof. intros <-. rewrite skipn_app, skipn_all, Nat.sub_diag. reflexivity. Qed.
Lemma firstn_app_exact A (a b : list A) n : length a = n -> firstn n (a ++ b) = a.
Proof. intros <-. rewrite firstn_app, firstn_all, Nat.sub_diag. cbn. apply app_nil_r. Qed.
Lemma index_map A (dec : forall x y : A, {x = y} + {x <> y}) l : NoDup l -> map (fun x => index_of dec x l) l = seq 0 (length l).
Proof.
  intros H. destruct l as [|x0 r0] eqn:E; [reflexivity|]. rewrite <- E in *. clear E.
  rewrite (@map_seq_nth _ _ (fun x => index_of dec x l) l x0). rewrite <- (map_id (seq 0 (length l))) at 2.
  apply map_ext_in. intros k Hk. apply in_seq in Hk. apply index_of_nth; [exact H | lia].
Qed.
Lemma unperm_seq A (d : A) n v : length v = n -> unperm d (seq 0 n) v = v.
Proof.
  intros <-. unfold unperm. rewrite seq_length. transitivity (gather d v (seq 0 (length v))); [|apply gather_seq]. unfold gather. apply map_ext_in. intros i Hi. apply in_seq in Hi.
  rewrite index_of_seq by lia. reflexivity.
Qed.

Section Maps.
  Context {G : chg}.
  Variables lim blim junk : nat.
  Hypothesis lim_pos : 0 < lim.
  Notation bc := (bc G).
  Implicit Types (ls l : list (leg G)) (cs : list bc) (fs : list bool) (q x y : G).

  (** the result of the block search *)
  Definition blocks_ok ls (order : list nat) (p : nat) (B : blocks) : Prop :=
    bc_ok (bqs B) /\ rep (bqs B) = uniques (bqs B) /\ NoDup (rep (bqs B)) /\
    bmaps B = map (block ls order p) (rep (bqs B)) /\
    bdims B = map (block_shape ls order p) (rep (bqs B)) /\
    (forall q, sector (row_legs ls order p) q <> [] -> sector (col_legs ls order p) (qinv q) <> [] -> In q (rep (bqs B))) /\
    (forall q, In q (rep (bqs B)) ->
       (p = 0 \/ p = length order -> q = qid) /\
       (0 < p < length order -> sector (row_legs ls order p) q <> [] /\ sector (col_legs ls order p) (qinv q) <> [])).

  Lemma isect_sorted (a b : list G) : StronglySorted (fun x y : G => qleb x y = true) (isect a b).
  Proof.
    unfold isect. assert (forall l : list G, StronglySorted (fun x y : G => qleb x y = true) l ->
      StronglySorted (fun x y : G => qleb x y = true) (filter (fun x => qmem x b) l)) as H.
    { clear. intros l H. induction H as [|x r _ IH Hx]; cbn; [constructor|]. destruct (qmem x b); [|exact IH].
      constructor; [exact IH|]. rewrite Forall_forall in *. intros y Hy. apply filter_In in Hy. apply Hx, Hy. }
    apply H, uniq_sorted.
  Qed.
  Lemma isect_eq (a b a' b' : list G) : (forall x, In x a /\ In x b <-> In x a' /\ In x b') -> isect a b = isect a' b'.
  Proof.
    intros H. apply (@sorted_unique G (fun x y => qleb x y = true)).
    - intros x y. apply qanti.
    - apply isect_sorted.
    - apply isect_sorted.
    - apply NoDup_Permutation; try apply NoDup_isect. intros x. rewrite !In_isect. apply H.
  Qed.

  (** positions of stored entries row by row *)
  Definition row_entries l1 l2 (r : list nat) : list (list nat) := map (fun c => r ++ c) (sector l2 (qinv (charge_of l1 r))).
  Lemma pos_rows l1 l2 K j c : flat_map (row_entries l1 l2) K = allowed (l1 ++ l2) -> j < length K ->
    In c (sector l2 (qinv (charge_of l1 (nth j K [])))) ->
    pos (l1 ++ l2) (nth j K [] ++ c) =
    nsumf (fun r => length (sector l2 (qinv (charge_of l1 r)))) (firstn j K) +
    index_of ixdec c (sector l2 (qinv (charge_of l1 (nth j K [])))).
  Proof.
    intros HK Hj Hc. unfold pos. rewrite <- HK. apply index_of_nth_error.
    - rewrite HK. apply NoDup_sector.
    - set (t := index_of ixdec c _).
      rewrite (@nsumf_ext _ _ (fun r => length (row_entries l1 l2 r))) by (intros; symmetry; apply map_length).
      assert (nth_error K j = Some (nth j K [])) as Ej by (apply nth_error_nth', Hj).
      rewrite (nth_error_flat_map Ej).
      + unfold row_entries. erewrite map_nth_error; [reflexivity|]. apply nth_error_index_of, Hc.
      + unfold row_entries. rewrite map_length. apply index_of_lt, Hc.
  Qed.
  Lemma pos_row_seq l1 l2 K j : flat_map (row_entries l1 l2) K = allowed (l1 ++ l2) -> j < length K ->
    map (fun c => pos (l1 ++ l2) (nth j K [] ++ c)) (sector l2 (qinv (charge_of l1 (nth j K [])))) =
    map (fun t => nsumf (fun r => length (sector l2 (qinv (charge_of l1 r)))) (firstn j K) + t)
      (seq 0 (length (sector l2 (qinv (charge_of l1 (nth j K [])))))).
  Proof.
    intros HK Hj. rewrite <- (@index_map _ ixdec) by apply NoDup_sector. rewrite map_map.
    apply map_ext_in. intros c Hc. apply pos_rows; assumption.
  Qed.

  Lemma sector_nil q : sector (G := G) [] q = if qdec qid q then [[]] else [].
  Proof. unfold sector. cbn. destruct (qdec qid q); reflexivity. Qed.

  Lemma gather_legs_seq ls n : length ls = n -> gather ([], false) ls (seq 0 n) = ls.
  Proof. intros <-. apply gather_seq. Qed.

  Lemma diag_blocks_spec cs fs p : all_ok cs -> length cs = length fs -> cs <> [] -> p <= length cs ->
    exists B, diag_blocks lim blim cs fs p = Ok B /\ blocks_ok (legs cs fs) (seq 0 (length cs)) p B.
  Proof.
    intros Hok E Hne Hp. unfold diag_blocks. set (ls := legs cs fs).
    assert (length ls = length cs) as Lls by (apply legs_length, E).
    assert (gather ([], false) ls (seq 0 (length cs)) = ls) as Hg by (apply gather_legs_seq, Lls).
    destruct ((p =? 0) || (p =? length cs)) eqn:Esp.
    - rewrite num_nonzero_spec by assumption. cbn [rbind]. fold ls. destruct cs as [|c0 cs0] eqn:Ecs; [congruence|]. rewrite <- Ecs in *.
      eexists. split; [reflexivity|]. unfold blocks_ok. cbn [bqs bmaps bdims rep uniques gather map nth].
      assert (forall q, In q [@qid G] <-> q = qid) as H1 by (intros; cbn; intuition congruence).
      assert (bc_ok (Lab [@qid G] [0])) as Hb.
      { split; [repeat constructor; auto|]. intros i. cbn. lia. }
      unfold block, block_shape, row_legs, col_legs. rewrite Hg.
      assert (map (pos ls) (allowed ls) = seq 0 (length (allowed ls))) as Hpos by apply (@index_map _ ixdec), NoDup_sector.
      assert (forall ix, In ix (allowed ls) -> length ix = length cs) as Hlen.
      { intros ix Hix. apply In_sector in Hix. destruct Hix as [Hix _]. apply valid_length in Hix. rewrite ldims_length in Hix. congruence. }
      destruct (Nat.eqb_spec p 0) as [->|N0].
      + cbn [firstn skipn]. rewrite sector_nil. destruct (qdec qid qid) as [_|]; [|congruence]. cbn [flat_map]. rewrite app_nil_r.
        rewrite qinv_id. fold (allowed ls).
        split; [exact Hb|]. split; [reflexivity|]. split; [repeat constructor; auto|]. split; [|split].
        * f_equal. rewrite <- Hpos. apply map_ext_in. intros ix Hix. cbn [app]. rewrite unperm_seq by (apply Hlen, Hix). reflexivity.
        * destruct (Nat.eqb_spec 0 (length fs)) as [E0|_]; [|reflexivity]. rewrite <- E, Ecs in E0. discriminate.
        * split.
          -- intros q Hq _. rewrite sector_nil in Hq. apply H1. destruct (qdec qid q); congruence.
          -- intros q Hq. apply H1 in Hq. split; [auto | lia].
      + cbn in Esp. apply Nat.eqb_eq in Esp. rewrite Esp.
        assert (firstn (length cs) ls = ls) as F1 by (rewrite <- Lls; apply firstn_all).
        assert (skipn (length cs) ls = []) as F2 by (rewrite <- Lls; apply skipn_all).
        rewrite F1, F2. rewrite sector_nil, qinv_id.
        destruct (qdec qid qid) as [_|]; [|congruence]. cbn [map].
        split; [exact Hb|]. split; [reflexivity|]. split; [repeat constructor; auto|]. split; [|split].
        * f_equal. rewrite <- Hpos. fold (allowed ls). rewrite flat_map_concat_map.
          rewrite (@map_ext_in _ _ _ (fun r => [pos ls r])).
          -- clear. induction (allowed ls); [reflexivity|]. cbn. f_equal. exact IHl.
          -- intros ix Hix. rewrite app_nil_r, unperm_seq by (apply Hlen, Hix). reflexivity.
        * rewrite <- E, Nat.eqb_refl. reflexivity.
        * split.
          -- intros q _ Hq. rewrite sector_nil in Hq. apply H1. destruct (qdec qid (qinv q)) as [E0|]; [|congruence].
             rewrite <- (qinv_inv q), <- E0. apply qinv_id.
          -- intros q Hq. apply H1 in Hq. split; [auto|]. rewrite seq_length. lia.
    - apply orb_false_iff in Esp. destruct Esp as [Ep0 Epn]. apply Nat.eqb_neq in Ep0, Epn.
      assert (length (firstn p cs) = length (firstn p fs)) as EL by (rewrite !firstn_length; lia).
      assert (length (skipn p cs) = length (map negb (skipn p fs))) as ER by (rewrite map_length, !skipn_length; lia).
      assert (firstn p cs <> []) as NL.
      { intros E0. apply (f_equal (@length bc)) in E0. rewrite firstn_length in E0. cbn in E0. lia. }
      assert (skipn p cs <> []) as NR.
      { intros E0. apply (f_equal (@length bc)) in E0. rewrite skipn_length in E0. cbn in E0. lia. }
      destruct (fused_degens_spec lim_pos (@all_ok_firstn _ p cs Hok) EL NL) as (ru & rn & Er & (R1 & R2 & R3 & R4 & R5) & _).
      destruct (fused_degens_spec lim_pos (@all_ok_skipn _ p cs Hok) ER NR) as (cu & cn & Ec & (C1 & C2 & C3 & C4 & C5) & _).
      rewrite Er. cbn [rbind]. rewrite Ec. cbn [rbind fst snd]. cbv zeta.
      rewrite legs_firstn in *. rewrite legs_negb, legs_skipn in *. fold ls in R4, R5, C4, C5 |- *.
      set (l1 := firstn p ls) in *. set (l2 := skipn p ls) in *.
      assert (ls = l1 ++ l2) as Els by (symmetry; apply firstn_skipn).
      assert (row_legs ls (seq 0 (length cs)) p = l1) as Erl by (unfold row_legs; rewrite Hg; reflexivity).
      assert (col_legs ls (seq 0 (length cs)) p = l2) as Ecl by (unfold col_legs; rewrite Hg; reflexivity).
      rewrite <- R2, <- C2. set (bq := isect (rep ru) (rep cu)).
      assert (forall q, In q bq <-> sector l1 q <> [] /\ sector l2 (qinv q) <> []) as Hbq.
      { intros q. unfold bq. rewrite In_isect, R4, C4, !In_charges_of, sector_flip. tauto. }
      assert (forall q, In q bq -> nth (index_of qdec q (rep ru)) rn 0 = length (sector l1 q)) as Hrn.
      { intros q Hq. apply In_isect in Hq. rewrite R5, (@nth_map_lt _ _ _ _ _ _ qid) by (apply index_of_lt, Hq).
        rewrite nth_index_of by apply Hq. apply count_sector. }
      assert (forall q, In q bq -> nth (index_of qdec q (rep cu)) cn 0 = length (sector l2 (qinv q))) as Hcn.
      { intros q Hq. apply In_isect in Hq. rewrite C5, (@nth_map_lt _ _ _ _ _ _ qid) by (apply index_of_lt, Hq).
        rewrite nth_index_of by apply Hq. rewrite count_sector, sector_flip. reflexivity. }
      destruct (Nat.eqb_spec (length bq) 0) as [Z|NZ].
      + exists (Blocks [] (Lab [] []) []). split; [reflexivity|]. unfold blocks_ok. cbn.
        split; [split; [constructor|]; intros i; cbn; split; [tauto|lia]|]. split; [reflexivity|]. split; [constructor|].
        split; [reflexivity|]. split; [reflexivity|]. split; [|intros q []]. intros q Hq1 Hq2. rewrite Erl in Hq1. rewrite Ecl in Hq2.
        apply length_zero_iff_nil in Z. assert (In q bq) as Hi by (apply Hbq; auto). rewrite Z in Hi. exact Hi.
      + destruct (@reduce_charges_spec _ (firstn p cs) (firstn p fs) bq None) as (d & Ed & D1 & D2 & D3);
          [apply all_ok_firstn, Hok | exact EL | exact NL | discriminate |].
        rewrite legs_firstn in Ed, D2, D3. fold ls in Ed, D2, D3. fold l1 in Ed, D2, D3.
        rewrite Ed. cbn [rbind fst snd]. eexists. split; [reflexivity|].
        set (K := kept l1 bq).
        assert (uniques d = bq) as Eu.
        { rewrite D2. unfold bq. apply isect_eq. intros x. rewrite !In_isect, R4. tauto. }
        assert (labels d = map (fun r => index_of qdec (charge_of l1 r) bq) K) as Elab.
        { rewrite labels_index by exact D1. rewrite Eu, D3. unfold charges_of, K, kept. rewrite filter_map_comm, map_map. reflexivity. }
        assert (forall r, In r K <-> valid r (ldims l1) /\ In (charge_of l1 r) bq) as HK.
        { intros r. unfold K, kept. rewrite filter_In, In_idxs, qmem_In. tauto. }
        set (len r := length (sector l2 (qinv (charge_of l1 r)))).
        assert (flat_map (row_entries l1 l2) K = allowed (l1 ++ l2)) as Hall.
        { rewrite allowed_app. unfold K, kept. apply flat_map_filter. intros r Hr Hq.
          unfold row_entries. destruct (sector l2 (qinv (charge_of l1 r))) as [|c0 s0] eqn:Es; [reflexivity|]. exfalso.
          assert (In (charge_of l1 r) bq) as Hb.
          { apply Hbq. split; [|rewrite Es; discriminate]. intros E0.
            assert (In r (sector l1 (charge_of l1 r))) as Hi by (apply In_sector; split; [apply In_idxs, Hr | reflexivity]).
            rewrite E0 in Hi. exact Hi. }
          apply qmem_In in Hb. congruence. }
        set (c2b := locs_in (rep cu) bq).
        assert (gather 0 cn (gather 0 c2b (labels d)) = map len K) as Enz.
        { rewrite Elab. unfold gather. rewrite !map_map. apply map_ext_in. intros r Hr. apply HK in Hr. destruct Hr as [_ Hr].
          unfold c2b, locs_in. rewrite (@nth_map_lt _ _ _ _ _ _ qid) by (apply index_of_lt, Hr).
          rewrite nth_index_of by exact Hr. apply Hcn, Hr. }
        rewrite Enz.
        assert (K <> []) as NK.
        { destruct bq as [|q0 bq0] eqn:Eb; [cbn in NZ; congruence|]. rewrite <- Eb in *.
          assert (In q0 bq) as Hq0 by (rewrite Eb; left; reflexivity).
          intros E0. pose proof Hq0 as Hq1. apply Hbq in Hq1. destruct Hq1 as [Hq1 _].
          destruct (sector l1 q0) as [|r s] eqn:Es; [congruence|].
          assert (In r (sector l1 q0)) as Hr by (rewrite Es; left; reflexivity). apply In_sector in Hr. destruct Hr as [Hv Hc].
          assert (In r K) as Hi by (apply HK; split; [exact Hv | rewrite Hc; exact Hq0]). rewrite E0 in Hi. exact Hi. }
        set (dims := map (fun n => (nth (nth n (locs_in (rep ru) bq) 0) rn 0, nth (nth n c2b 0) cn 0)) (seq 0 (length bq))).
        assert (dims = map (block_shape ls (seq 0 (length cs)) p) bq) as Edims.
        { unfold dims. rewrite (@map_seq_nth _ _ (block_shape ls (seq 0 (length cs)) p) bq qid). apply map_ext_in. intros n Hn. apply in_seq in Hn.
          assert (In (nth n bq qid) bq) as Hq by (apply nth_In; lia).
          unfold block_shape. rewrite Erl, Ecl. unfold locs_in, c2b.
          unfold locs_in. rewrite (@nth_map_lt _ _ (fun x => index_of qdec x (rep ru)) bq n 0 qid) by lia.
          rewrite (@nth_map_lt _ _ (fun x => index_of qdec x (rep cu)) bq n 0 qid) by lia.
          rewrite Hrn, Hcn by exact Hq. reflexivity. }
        unfold blocks_ok. cbn [bqs bmaps bdims]. rewrite rep_Lab_seq.
        split; [apply Lab_seq_ok, NoDup_isect|]. split; [reflexivity|]. split; [apply NoDup_isect|]. split; [|split; [exact Edims|]].
        * rewrite (@map_seq_nth _ _ (block ls (seq 0 (length cs)) p) bq qid). apply map_ext_in. intros n Hn. apply in_seq in Hn.
          set (q := nth n bq qid). assert (In q bq) as Hq by (apply nth_In; lia).
          assert (snd (nth n dims (0, 0)) = length (sector l2 (qinv q))) as Esnd.
          { rewrite Edims, (@nth_map_lt _ _ _ _ _ _ qid) by lia. unfold block_shape. rewrite Ecl. reflexivity. }
          rewrite Esnd.
          match goal with |- flat_map _ (masked 0 ?c ?m) = _ => set (cum := c); assert (m = map (fun r => if qdec (charge_of l1 r) q then true else false) K) as Em end.
          { assert (map (fun k => k =? n) (labels d) = map (fun r => if qdec (charge_of l1 r) q then true else false) K) as Hm.
            { rewrite Elab, map_map. apply map_ext_in. intros r Hr. apply HK in Hr. destruct Hr as [_ Hr].
              destruct (qdec (charge_of l1 r) q) as [Eq|Nq].
              - rewrite Eq. apply Nat.eqb_eq. apply index_of_nth; [apply NoDup_isect | lia].
              - apply Nat.eqb_neq. intros En. apply Nq. unfold q. rewrite <- En. symmetry. apply nth_index_of, Hr. }
            destruct (length bq <? blim); [exact Hm|]. rewrite <- Hm.
            rewrite (@map_seq_nth _ _ (fun k => k =? n) (labels d) 0). apply map_ext_in. intros j Hj. apply in_seq in Hj.
            destruct (nth j (labels d) 0 =? n) eqn:En.
            - apply existsb_exists. exists (nth j (labels d) 0, j). cbn. rewrite En, Nat.eqb_refl. split; [|reflexivity].
              assert (nth j (combine (labels d) (seq 0 (length (labels d)))) (0, 0) = (nth j (labels d) 0, j)) as Hnth.
              { rewrite combine_nth by (rewrite seq_length; reflexivity). rewrite seq_nth by lia. reflexivity. }
              rewrite <- Hnth. apply nth_In. rewrite combine_length, seq_length. lia.
            - apply Bool.not_true_is_false. intros Hx. apply existsb_exists in Hx. destruct Hx as ([a b] & Hin & Hab).
              cbn in Hab. apply andb_true_iff in Hab. destruct Hab as [Ha Hb]. apply Nat.eqb_eq in Ha, Hb. subst a b.
              apply (In_nth _ _ (0, 0)) in Hin. destruct Hin as (k & Hk & Ek). rewrite combine_length, seq_length in Hk.
              rewrite combine_nth in Ek by (rewrite seq_length; reflexivity). rewrite seq_nth in Ek by lia. injection Ek as Ea Eb.
              cbn in Eb. subst k. rewrite Ea, Nat.eqb_refl in En. discriminate. }
          rewrite Em. unfold masked, gather. rewrite (@flatnonzero_map _ _ _ []), flat_map_map.
          unfold block. rewrite Erl, Ecl.
          assert (sector l1 q = map (fun j => nth j K []) (filter (fun j => if qdec (charge_of l1 (nth j K [])) q then true else false) (seq 0 (length K)))) as Esec.
          { transitivity (filter (fun r => if qdec (charge_of l1 r) q then true else false) K).
            - unfold sector, K, kept. rewrite filter_filter. apply filter_ext. intros r.
              destruct (qdec (charge_of l1 r) q) as [Eq|]; [|rewrite Bool.andb_false_r; reflexivity].
              rewrite Eq. apply qmem_In in Hq. rewrite Hq. reflexivity.
            - rewrite <- (gather_seq [] K) at 1. unfold gather. rewrite filter_map_comm. reflexivity. }
          rewrite Esec, flat_map_map. apply flat_map_ext_in. intros j Hj. apply filter_In in Hj. destruct Hj as [Hj Hjq].
          apply in_seq in Hj. destruct (qdec (charge_of l1 (nth j K [])) q) as [Eq|]; [|discriminate]. rewrite <- Eq.
          transitivity (map (fun c => pos (l1 ++ l2) (nth j K [] ++ c)) (sector l2 (qinv (charge_of l1 (nth j K []))))).
          -- rewrite (@pos_row_seq l1 l2 K j Hall) by lia. unfold cum. rewrite excl_sum_nth by (rewrite map_length; lia).
             rewrite firstn_map. reflexivity.
          -- apply map_ext_in. intros c Hc. rewrite unperm_seq; [rewrite <- Els; reflexivity|].
             assert (In (nth j K []) K) as Hr by (apply nth_In; lia). apply HK in Hr. destruct Hr as [Hr _].
             apply In_sector in Hc. destruct Hc as [Hc _]. apply valid_length in Hr, Hc.
             rewrite app_length, Hr, Hc, <- app_length, <- ldims_app, ldims_length, <- Els. exact Lls.
        * rewrite Erl, Ecl, seq_length. split; [intros q Hq1 Hq2; apply Hbq; auto|]. intros q Hq. split; [lia|]. intros _. apply Hbq, Hq.
  Qed.
End Maps.
