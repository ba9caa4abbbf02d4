(** * BlockTr: block maps of transposed matricisations *)
From Coq Require Import Sorting.Sorted Permutation.
From Verif Require Import Prelude Algebra Tensor TensorFacts Res Charge ChargeFacts BlockSparse BlockSpec ListFacts BlockFacts BlockDegen BlockReduce BlockMaps.
Set Implicit Arguments.
Unset Strict Implicit.

Lemma d2s_fold (labs degen : list nat) M acc y d : y < length labs -> length acc = length labs ->
  (forall cm, In cm M -> nth cm degen 0 = length (flatnonzero (map (fun k => k =? cm) labs))) ->
  nth y (fold_left (fun acc cm => scatter acc (flatnonzero (map (fun k => k =? cm) labs)) (seq 0 (nth cm degen 0))) M acc) d =
  if mem (nth y labs 0) M then nindex y (flatnonzero (map (fun k => k =? nth y labs 0) labs)) else nth y acc d.
Proof.
  revert acc. induction M as [|cm M IH]; intros acc Hy Ha Hd; [reflexivity|]. cbn [fold_left].
  rewrite IH; [|exact Hy | rewrite scatter_length; exact Ha | intros; apply Hd; right; assumption].
  cbn [mem existsb]. fold (mem (nth y labs 0) M). destruct (mem (nth y labs 0) M) eqn:Em; [rewrite Bool.orb_true_r; reflexivity|].
  rewrite Bool.orb_false_r. set (ps := flatnonzero (map (fun k => k =? cm) labs)).
  assert (forall j, In j ps -> j < length acc) as Hps.
  { intros j Hj. apply flatnonzero_lt in Hj. rewrite map_length in Hj. lia. }
  destruct (Nat.eqb_spec (nth y labs 0) cm) as [E|N].
  - rewrite E. fold ps. assert (In y ps) as Hi.
    { apply In_flatnonzero. rewrite map_length. split; [exact Hy|]. rewrite (@nth_map_lt _ _ _ _ _ _ 0) by exact Hy.
      apply Nat.eqb_eq, E. }
    rewrite scatter_in; [|apply NoDup_flatnonzero | rewrite seq_length; symmetry; apply Hd; left; reflexivity | exact Hps | exact Hi].
    rewrite Hd by (left; reflexivity). fold ps. rewrite seq_nth by (apply index_of_lt, Hi). reflexivity.
  - apply scatter_notin; [exact Hps|]. intros Hi. apply In_flatnonzero in Hi. destruct Hi as [_ Hi].
    rewrite (@nth_map_lt _ _ _ _ _ _ 0) in Hi by exact Hy. apply Nat.eqb_eq in Hi. congruence.
Qed.

Lemma strides_of_app d1 d2 : strides_of (d1 ++ d2) = map (fun s => s * nprod d2) (strides_of d1) ++ strides_of d2.
Proof.
  induction d1 as [|d r IH]; [reflexivity|]. cbn [app]. rewrite !strides_of_cons, IH. cbn [map app]. f_equal. apply nprod_app.
Qed.
Lemma dotp_scale k s v : dotp (map (fun x => x * k) s) v = dotp s v * k.
Proof.
  revert v. induction s as [|x s IH]; intros [|i v]; try reflexivity.
  change (x * k * i + dotp (map (fun x => x * k) s) v = (x * i + dotp s v) * k). rewrite IH. lia.
Qed.
Lemma dotp_split d1 d2 v : length v = length d1 + length d2 ->
  dotp (strides_of (d1 ++ d2)) v = dotp (strides_of d1) (firstn (length d1) v) * nprod d2 + dotp (strides_of d2) (skipn (length d1) v).
Proof.
  intros H. rewrite strides_of_app. rewrite <- (firstn_skipn (length d1) v) at 1. rewrite dotp_app, dotp_scale; [reflexivity|].
  rewrite firstn_length, map_length, strides_of_length. lia.
Qed.
Lemma nth_firstn_lt A (d : A) n l k : k < n -> nth k (firstn n l) d = nth k l d.
Proof. revert n k. induction l as [|x l IH]; intros [|n] [|k] H; cbn; try lia; try reflexivity. apply IH. lia. Qed.
Lemma nth_skipn_plus A (d : A) n l k : nth k (skipn n l) d = nth (n + k) l d.
Proof. revert l. induction n as [|n IH]; intros [|x l]; cbn; try reflexivity; [destruct k; reflexivity | apply IH]. Qed.

(** splitting a location into row and column parts produces no carry *)
Lemma no_carry d1 d2 a b ix : valid ix (d1 ++ d2) -> length a = length (d1 ++ d2) -> length b = length (d1 ++ d2) ->
  (forall k, k < length (d1 ++ d2) -> nth k ix 0 = nth k a 0 + nth k b 0) ->
  let x := dotp (strides_of (d1 ++ d2)) a in
  let y := dotp (strides_of (d1 ++ d2)) b in
  let w := nprod d2 in
  x / w + y / w = ravel (d1 ++ d2) ix / w /\ x mod w + y mod w = ravel (d1 ++ d2) ix mod w.
Proof.
  intros Hv La Lb Hk x y w. pose proof (valid_length Hv) as Li.
  assert (0 < w) as Hw. { pose proof (proj2 (@valid_app_inv _ _ _ Hv)) as H. apply nprod_pos_valid in H. exact H. }
  assert (dotp (strides_of (d1 ++ d2)) ix = x + y) as Ex.
  { apply (@dotp_add _ _ _ _ (length (d1 ++ d2))); auto. apply strides_of_length. }
  rewrite <- dotp_strides by exact Li. rewrite Ex.
  rewrite app_length in La, Lb, Li.
  set (X1 := dotp (strides_of d1) (firstn (length d1) a)). set (X2 := dotp (strides_of d2) (skipn (length d1) a)).
  set (Y1 := dotp (strides_of d1) (firstn (length d1) b)). set (Y2 := dotp (strides_of d2) (skipn (length d1) b)).
  assert (x = X1 * w + X2) as E1 by (apply dotp_split; exact La).
  assert (y = Y1 * w + Y2) as E2 by (apply dotp_split; exact Lb).
  assert (X2 + Y2 < w) as Hlt.
  { pose proof (proj2 (@valid_app_inv _ _ _ Hv)) as H2. pose proof (valid_length H2) as L2. apply ravel_lt in H2.
    rewrite <- dotp_strides in H2 by exact L2.
    rewrite (@dotp_add _ (skipn (length d1) a) (skipn (length d1) b) _ (length d2)) in H2; try (rewrite ?skipn_length; lia).
    - apply strides_of_length.
    - intros k Hk2. rewrite !nth_skipn_plus. apply Hk. rewrite app_length. lia. }
  rewrite E1, E2. replace (X1 * w + X2 + (Y1 * w + Y2)) with ((X2 + Y2) + (X1 + Y1) * w) by lia.
  rewrite (Nat.add_comm (X1 * w)), (Nat.add_comm (Y1 * w)).
  rewrite !Nat.div_add, !Nat.mod_add by lia. rewrite !Nat.div_small, !Nat.mod_small by lia. lia.
Qed.

Lemma concat_single A B (f : A -> B) (l : list A) : concat (map (fun a => [f a]) l) = map f l.
Proof. induction l as [|a l IH]; [reflexivity|]. cbn. f_equal. exact IH. Qed.

Section Tr.
  Context {G : chg}.
  Notation bc := (bc G).
  Implicit Types (ls l : list (leg G)) (cs : list bc) (fs : list bool) (q x y : G).

  Lemma reduce_mask ls (bq : list G) (d : bc) (st : option (list nat)) n : bc_ok d ->
    uniques d = isect (charges_of ls) bq -> rep d = filter (fun x => qmem x bq) (charges_of ls) ->
    (forall q, In q bq -> In q (charges_of ls)) -> (exists a b, bq = isect a b) -> n < length bq ->
    masked 0 (map (loc_of ls st) (kept ls bq)) (map (fun k => k =? n) (labels d)) = map (loc_of ls st) (sector ls (nth n bq qid)).
  Proof.
    intros D1 D2 D3 Hsub (a & b & Ebq) Hn.
    assert (uniques d = bq) as Eu.
    { rewrite D2. rewrite Ebq at 2. apply isect_eq. intros x. split.
      - intros [_ Hx]. rewrite Ebq in Hx. apply In_isect in Hx. exact Hx.
      - intros Hx. assert (In x bq) as Hi by (rewrite Ebq; apply In_isect, Hx). split; [apply Hsub, Hi | exact Hi]. }
    assert (NoDup bq) as Hnd by (rewrite Ebq; apply NoDup_isect).
    rewrite labels_index by exact D1. rewrite Eu, D3. unfold charges_of. rewrite filter_map_comm, !map_map.
    fold (kept ls bq). rewrite masked_map2. f_equal. unfold kept, sector. rewrite filter_filter. apply filter_ext. intros ix.
    destruct (qmem (charge_of ls ix) bq) eqn:Eq.
    - cbn [andb]. apply qmem_In in Eq. destruct (qdec (charge_of ls ix) (nth n bq qid)) as [E|N].
      + rewrite E. apply Nat.eqb_eq. apply index_of_nth; assumption.
      + apply Nat.eqb_neq. intros E. apply N. rewrite <- E. symmetry. apply nth_index_of, Eq.
    - cbn [andb]. destruct (qdec (charge_of ls ix) (nth n bq qid)) as [E|N]; [|reflexivity].
      assert (In (charge_of ls ix) bq) as Hi by (rewrite E; apply nth_In, Hn). apply qmem_In in Hi. congruence.
  Qed.

  Lemma tr_pos l1 l2 cum d2s ix :
    (forall i, i < nprod (ldims l1) -> nth i cum 0 = nsumf (fun r => length (sector l2 (qinv (charge_of l1 r)))) (firstn i (idxs (ldims l1)))) ->
    (forall r c, valid r (ldims l1) -> valid c (ldims l2) -> charge_of l2 c = qinv (charge_of l1 r) ->
       nth (ravel (ldims l2) c) d2s 0 = index_of ixdec c (sector l2 (qinv (charge_of l1 r)))) ->
    In ix (allowed (l1 ++ l2)) ->
    pos (l1 ++ l2) ix = nth (ravel (ldims (l1 ++ l2)) ix / nprod (ldims l2)) cum 0 + nth (ravel (ldims (l1 ++ l2)) ix mod nprod (ldims l2)) d2s 0.
  Proof.
    intros Hcum Hd2s Hix. apply In_sector in Hix. destruct Hix as [Hv Hc]. rewrite ldims_app in Hv.
    destruct (@valid_app_inv _ _ _ Hv) as [Hv1 Hv2]. set (r := firstn _ ix) in *. set (c := skipn _ ix) in *.
    assert (ix = r ++ c) as Eix by (symmetry; apply firstn_skipn). rewrite Eix in *. clear Eix.
    pose proof (valid_length Hv1) as L1.
    assert (charge_of l2 c = qinv (charge_of l1 r)) as Ec.
    { rewrite charge_of_app in Hc by (rewrite L1; apply ldims_length). rewrite qcomm in Hc. apply qop_eq_id, Hc. }
    rewrite ldims_app, ravel_app by exact L1.
    pose proof (@ravel_lt _ _ Hv2) as Hr2. pose proof (@ravel_lt _ _ Hv1) as Hr1. set (w := nprod (ldims l2)) in *.
    rewrite (Nat.add_comm (ravel (ldims l1) r * w)), Nat.div_add, Nat.mod_add by lia.
    rewrite Nat.div_small, Nat.mod_small by exact Hr2. cbn [Nat.add].
    rewrite Hcum by exact Hr1. rewrite (Hd2s r c Hv1 Hv2 Ec).
    rewrite <- (@nth_idxs _ _ Hv1) at 1. rewrite (@pos_rows _ l1 l2 (idxs (ldims l1))).
    - rewrite nth_idxs by exact Hv1. reflexivity.
    - symmetry. apply allowed_app.
    - rewrite length_idxs. exact Hr1.
    - rewrite nth_idxs by exact Hv1. apply In_sector. auto.
  Qed.

  Lemma In_allowed_unperm ls order ix : is_perm (length ls) order ->
    In ix (allowed (gather ([], false) ls order)) -> In (unperm 0 order ix) (allowed ls).
  Proof.
    intros Hp Hix. apply In_sector in Hix. destruct Hix as [Hv Hc].
    assert (ldims (gather ([], false) ls order) = gather 0 (ldims ls) order) as Ed.
    { unfold ldims. apply map_gather. intros i Hi. apply (@is_perm_In _ _ i Hp), Hi. }
    rewrite Ed in Hv. apply In_sector. split.
    - apply valid_unperm; [rewrite ldims_length; exact Hp | exact Hv].
    - rewrite charge_of_unperm; [exact Hc | exact Hp |]. apply valid_length in Hv. rewrite Hv, gather_length. apply is_perm_length, Hp.
  Qed.
  Lemma allowed_pairs l1 l2 q r c : In r (sector l1 q) -> In c (sector l2 (qinv q)) -> In (r ++ c) (allowed (l1 ++ l2)).
  Proof.
    intros Hr Hc. apply In_sector in Hr, Hc. destruct Hr as [Hr Er], Hc as [Hc Ec]. apply In_sector. split.
    - rewrite ldims_app. apply valid_app; assumption.
    - rewrite charge_of_app by (apply valid_length in Hr; rewrite Hr; apply ldims_length). rewrite Er, Ec. apply qinvr.
  Qed.

  Variables lim blim junk : nat.
  Hypothesis lim_pos : 0 < lim.

  Lemma tr_blocks_spec cs fs p order : all_ok cs -> length cs = length fs -> cs <> [] -> p <= length cs ->
    is_perm (length cs) order ->
    exists B, tr_blocks lim blim junk cs fs p order = Ok B /\ blocks_ok (legs cs fs) order p B.
  Proof.
    intros Hok E Hne Hp Hperm. unfold tr_blocks.
    destruct (leqb Nat.eq_dec order (seq 0 (length cs))) eqn:Eo.
    { apply leqb_true in Eo. rewrite Eo. apply diag_blocks_spec; assumption. }
    assert (length order = length cs) as Lo by (apply is_perm_length, Hperm).
    assert (2 <= length cs) as H2.
    { destruct cs as [|c1 [|c2 cs']]; [congruence | | cbn; lia]. exfalso.
      destruct order as [|i [|j o]]; cbn in Lo; try discriminate.
      assert (i < 1) as Hi by (apply (@is_perm_In _ _ i Hperm); left; reflexivity). replace i with 0 in Eo by lia. discriminate. }
    clear Eo. cbv zeta. set (dims := map (fun c => bdim c) cs). set (ls := legs cs fs).
    assert (length ls = length cs) as Lls by (apply legs_length, E).
    assert (ldims ls = dims) as Eld by (apply ldims_legs, E).
    assert (length dims = length cs) as Ldims by apply map_length.
    destruct (@find_best_partition_ok dims) as (op & Eop & Hop1 & Hop2); [lia|].
    rewrite Eop. cbn [rbind].
    assert (length (firstn op cs) = length (firstn op fs)) as EL by (rewrite !firstn_length; lia).
    assert (length (skipn op cs) = length (map negb (skipn op fs))) as ER by (rewrite map_length, !skipn_length; lia).
    assert (firstn op cs <> []) as NL.
    { intros E0. apply (f_equal (@length bc)) in E0. rewrite firstn_length in E0. cbn in E0. lia. }
    assert (skipn op cs <> []) as NR.
    { intros E0. apply (f_equal (@length bc)) in E0. rewrite skipn_length in E0. cbn in E0. lia. }
    destruct (unique_fused_spec (@all_ok_firstn _ op cs Hok) EL NL) as (ru & Er & R1 & R2 & R4 & R6).
    destruct (fused_degens_spec lim_pos (@all_ok_skipn _ op cs Hok) ER NR) as (cu & cn & Ec & (C1 & C2 & C3 & C4 & C5) & C6).
    destruct (fuse_charges_spec (@all_ok_firstn _ op cs Hok) EL NL) as (fl & F1 & F2 & F3 & _).
    destruct (fuse_charges_spec (@all_ok_skipn _ op cs Hok) ER NR) as (fr & F4 & F5 & F6 & _).
    rewrite (fused_uniques_fuse _ (@all_ok_firstn _ op cs Hok) EL NL F1) in R6.
    rewrite (fused_uniques_fuse _ (@all_ok_skipn _ op cs Hok) ER NR F4) in C6.
    rewrite Er. cbn [rbind]. rewrite Ec. cbn [rbind fst snd].
    rewrite legs_firstn in *. rewrite legs_negb, legs_skipn in *. fold ls in R4, C4, C5, F3, F6.
    set (l1 := firstn op ls) in *. set (l2 := skipn op ls) in *.
    assert (ls = l1 ++ l2) as Els by (symmetry; apply firstn_skipn).
    assert (ldims l1 = firstn op dims) as D1 by (unfold l1, ldims; rewrite <- firstn_map, <- Eld; reflexivity).
    assert (ldims l2 = skipn op dims) as D2 by (unfold l2, ldims; rewrite <- skipn_map, <- Eld; reflexivity).
    rewrite <- R2, <- C2. set (obq := isect (rep ru) (rep cu)).
    assert (forall q, In q obq <-> sector l1 q <> [] /\ sector l2 (qinv q) <> []) as Hobq.
    { intros q. unfold obq. rewrite In_isect, R4, C4, !In_charges_of, sector_flip. tauto. }
    set (rl := row_legs ls order p). set (cl := col_legs ls order p).
    assert (rl ++ cl = gather ([], false) ls order) as Erc by apply firstn_skipn.
    assert (forall q r c, In r (sector rl q) -> In c (sector cl (qinv q)) -> In (unperm 0 order (r ++ c)) (allowed ls)) as Hallow.
    { intros q r c Hr Hc. apply In_allowed_unperm; [rewrite Lls; exact Hperm|]. rewrite <- Erc. apply (allowed_pairs Hr Hc). }
    assert (forall ix, In ix (allowed ls) -> obq <> []) as Hob.
    { intros ix Hix. rewrite Els in Hix. rewrite allowed_app in Hix. apply in_flat_map in Hix. destruct Hix as (r & Hr & Hix).
      apply in_map_iff in Hix. destruct Hix as (c & _ & Hc). intros E0.
      assert (In (charge_of l1 r) obq) as Hi; [|rewrite E0 in Hi; exact Hi].
      apply Hobq. split.
      - intros E1. assert (In r (sector l1 (charge_of l1 r))) as Hi by (apply In_sector; split; [apply In_idxs, Hr | reflexivity]).
        rewrite E1 in Hi. exact Hi.
      - intros E1. rewrite E1 in Hc. exact Hc. }
    destruct (Nat.eqb_spec (length obq) 0) as [Z|NZ].
    { exists (Blocks [] (Lab [] []) []). split; [reflexivity|]. unfold blocks_ok. cbn [bqs bmaps bdims rep uniques gather map].
      split; [split; [constructor|]; intros i; cbn; split; [tauto|lia]|]. split; [reflexivity|]. split; [constructor|].
      split; [reflexivity|]. split; [reflexivity|]. split; [|intros q []]. intros q Hq1 Hq2. exfalso. fold rl in Hq1. fold cl in Hq2.
      destruct (sector rl q) as [|r sr] eqn:Esr; [congruence|]. destruct (sector cl (qinv q)) as [|c sc] eqn:Esc; [congruence|].
      apply length_zero_iff_nil in Z. apply (Hob (unperm 0 order (r ++ c))); [|exact Z].
      apply (Hallow q); [rewrite Esr | rewrite Esc]; left; reflexivity. }
    rewrite F1. cbn [rbind]. rewrite F4. cbn [rbind].
    set (row_map := locs_in (rep ru) obq). set (col_map := locs_in (rep cu) obq).
    assert (forall q, In q obq -> nth (index_of qdec q (rep cu)) cn 0 = length (sector l2 (qinv q))) as Hcn.
    { intros q Hq. apply In_isect in Hq. rewrite C5, (@nth_map_lt _ _ _ _ _ _ qid) by (apply index_of_lt, Hq).
      rewrite nth_index_of by apply Hq. rewrite count_sector, sector_flip. reflexivity. }
    assert (forall q, In q (charges_of l1) -> mem (index_of qdec q (rep ru)) row_map = qmem q obq) as Hrm.
    { intros q Hq. apply R4 in Hq. destruct (qmem q obq) eqn:Et.
      - apply mem_In. unfold row_map, locs_in. apply (in_map (fun x => index_of qdec x (rep ru))). apply qmem_In, Et.
      - apply mem_nIn. unfold row_map, locs_in. rewrite in_map_iff. intros (y & Ey & Hy).
        assert (y = q) as ->.
        { rewrite <- (@nth_index_of _ qdec y (rep ru) qid), Ey by (apply In_isect in Hy; apply Hy). apply nth_index_of, Hq. }
        apply qmem_In in Hy. congruence. }
    set (degens := map _ (labels fl)).
    assert (degens = map (fun r => length (sector l2 (qinv (charge_of l1 r)))) (idxs (ldims l1))) as Edeg.
    { unfold degens. rewrite labels_index by exact F2. rewrite <- R6, <- R2, F3. unfold charges_of. rewrite !map_map.
      apply map_ext_in. intros r Hr. set (q := charge_of l1 r).
      assert (In q (charges_of l1)) as Hq by (apply in_map, Hr).
      rewrite nth_inv_map by (apply index_of_lt, R4, Hq). rewrite Hrm by exact Hq.
      destruct (qmem q obq) eqn:Eq.
      - apply qmem_In in Eq. unfold row_map, locs_in.
        assert (nindex (index_of qdec q (rep ru)) (map (fun x => index_of qdec x (rep ru)) obq) = index_of qdec q obq) as ->.
        { apply (@index_of_map_inj _ _ qdec Nat.eq_dec (fun x => index_of qdec x (rep ru))).
          intros y Hy Ey. rewrite <- (@nth_index_of _ qdec y (rep ru) qid), Ey by (apply In_isect in Hy; apply Hy).
          apply nth_index_of, R4, Hq. }
        unfold col_map, locs_in. rewrite (@nth_map_lt _ _ _ _ _ _ qid) by (apply index_of_lt, Eq).
        rewrite nth_index_of by exact Eq. apply Hcn, Eq.
      - symmetry. apply length_zero_iff_nil. destruct (sector l2 (qinv q)) as [|c0 s0] eqn:Es; [reflexivity|]. exfalso.
        assert (In q obq) as Hb; [|apply qmem_In in Hb; congruence].
        apply Hobq. split; [|rewrite Es; discriminate]. intros E0.
        assert (In r (sector l1 q)) as Hi by (apply In_sector; split; [apply In_idxs, Hr | reflexivity]).
        rewrite E0 in Hi. exact Hi. }
    set (cum := cumsum (0 :: removelast degens)).
    set (w := nprod (skipn op dims)).
    set (d2s := dense_to_sparse junk w (labels fr) col_map cn).
    assert (forall ix, In ix (allowed ls) -> pos ls ix = nth (ravel dims ix / w) cum 0 + nth (ravel dims ix mod w) d2s 0) as Hpos.
    { intros ix Hix. rewrite Els in Hix |- *.
      assert (dims = ldims (l1 ++ l2)) as Ed by (rewrite <- Els; symmetry; exact Eld).
      assert (w = nprod (ldims l2)) as Ew by (unfold w; rewrite D2; reflexivity).
      rewrite Ed, Ew. apply tr_pos; [| |exact Hix].
      - intros i Hi. unfold cum. rewrite excl_sum_nth' by (rewrite Edeg, map_length, length_idxs; exact Hi).
        rewrite Edeg, firstn_map. reflexivity.
      - intros r c Hr Hc Hq. unfold d2s, dense_to_sparse.
        assert (labels fr = map (fun c => index_of qdec (charge_of (map flip l2) c) (rep cu)) (idxs (ldims l2))) as Elab.
        { rewrite labels_index by exact F5. rewrite <- C6, <- C2, F6. unfold charges_of. rewrite ldims_flip, map_map. reflexivity. }
        assert (length (labels fr) = nprod (ldims l2)) as Llab by (rewrite Elab, map_length; apply length_idxs).
        assert (forall q, In q (rep cu) -> flatnonzero (map (fun k => k =? index_of qdec q (rep cu)) (labels fr)) = map (ravel (ldims l2)) (sector l2 (qinv q))) as Hfl.
        { intros q Hcq. rewrite Elab, map_map, flatnonzero_idxs. f_equal. rewrite <- sector_flip. unfold sector. rewrite ldims_flip.
          apply filter_ext_in. intros c' Hc'.
          assert (In (charge_of (map flip l2) c') (rep cu)) as Hin.
          { apply C4. unfold charges_of. apply in_map. rewrite ldims_flip. exact Hc'. }
          destruct (qdec (charge_of (map flip l2) c') q) as [E1|N1].
          - rewrite E1. apply Nat.eqb_refl.
          - apply Nat.eqb_neq. intros E1. apply N1. rewrite <- (@nth_index_of _ qdec q (rep cu) qid Hcq), <- E1. symmetry. apply nth_index_of, Hin. }
        set (q := charge_of l1 r) in *.
        assert (charge_of (map flip l2) c = q) as Eq by (rewrite charge_of_flip, Hq; apply qinv_inv).
        assert (In q (rep cu)) as Hqc.
        { apply C4. unfold charges_of. rewrite ldims_flip. rewrite <- Eq. apply in_map, In_idxs, Hc. }
        assert (In q obq) as Hqo.
        { apply Hobq. split; intros E0.
          - assert (In r (sector l1 q)) as Hi by (apply In_sector; split; [exact Hr | reflexivity]). rewrite E0 in Hi. exact Hi.
          - assert (In c (sector l2 (qinv q))) as Hi by (apply In_sector; split; [exact Hc | exact Hq]). rewrite E0 in Hi. exact Hi. }
        rewrite d2s_fold.
        + assert (nth (ravel (ldims l2) c) (labels fr) 0 = index_of qdec q (rep cu)) as En.
          { rewrite Elab, (@nth_map_lt _ _ _ _ _ _ []) by (rewrite length_idxs; apply ravel_lt, Hc).
            rewrite nth_idxs by exact Hc. rewrite Eq. reflexivity. }
          rewrite En. assert (mem (index_of qdec q (rep cu)) col_map = true) as ->.
          { apply mem_In. unfold col_map, locs_in. apply (in_map (fun x => index_of qdec x (rep cu))), Hqo. }
          rewrite Hfl by exact Hqc. apply (@index_of_map_inj _ _ ixdec Nat.eq_dec (ravel (ldims l2))).
          intros c' Hc' E1. apply In_sector in Hc'. apply (@ravel_inj (ldims l2)); [apply Hc' | exact Hc | exact E1].
        + rewrite Llab. apply ravel_lt, Hc.
        + rewrite repeat_length, Llab, <- Ew. reflexivity.
        + intros cm Hcm. unfold col_map, locs_in in Hcm. apply in_map_iff in Hcm. destruct Hcm as (q' & <- & Hq').
          rewrite Hcn by exact Hq'. apply In_isect in Hq'. rewrite Hfl by apply Hq'. rewrite map_length. reflexivity. }
    clearbody cum d2s. clear degens Edeg.
    set (st := map (fun i => nprod (skipn (S i) dims)) (seq 0 (length dims))).
    assert (st = strides_of dims) as Est by reflexivity. clearbody st. subst st.
    set (nst := gather 0 (strides_of dims) order).
    assert (length nst = length cs) as Lnst by (unfold nst; rewrite gather_length; exact Lo).
    assert (length (gather (Raw []) cs order) = length cs) as Locs by (rewrite gather_length; exact Lo).
    assert (length (gather false fs order) = length cs) as Lofs by (rewrite gather_length; exact Lo).
    assert (legs (gather (Raw []) cs order) (gather false fs order) = gather ([], false) ls order) as Eleg.
    { apply legs_gather; [exact E|]. intros i Hi. apply (@is_perm_In _ _ i Hperm), Hi. }
    set (ocs := gather (Raw []) cs order) in *. set (ofs := gather false fs order) in *.
    assert (all_ok ocs) as Hoks by (apply all_ok_gather, Hok).
    assert (legs (firstn p ocs) (firstn p ofs) = rl) as Erl.
    { rewrite legs_firstn, Eleg. reflexivity. }
    assert (legs (skipn p ocs) (map negb (skipn p ofs)) = map flip cl) as Ecl.
    { rewrite legs_negb, legs_skipn, Eleg. reflexivity. }
    assert (length (firstn p ocs) = length (firstn p ofs)) as ELo by (rewrite !firstn_length; lia).
    assert (length (skipn p ocs) = length (map negb (skipn p ofs))) as ERo by (rewrite map_length, !skipn_length; lia).
    assert (length rl = p) as Lrl by (unfold rl, row_legs; rewrite firstn_length, gather_length; lia).
    assert (length cl = length cs - p) as Lcl by (unfold cl, col_legs; rewrite skipn_length, gather_length; lia).
    assert (forall ix, length ix = length cs -> ravel dims (unperm 0 order ix) = dotp nst ix) as Hrav.
    { intros ix Lix. unfold nst. rewrite (@dotp_unperm (length cs)); [|exact Hperm | rewrite strides_of_length; exact Ldims | exact Lix].
      rewrite dotp_strides; [reflexivity|]. rewrite unperm_length. lia. }
    assert (uniques (@identity_charges G 1) = [qid]) as Eid by reflexivity.
    assert (exists ix0, In ix0 (allowed (rl ++ cl))) as (ix0 & Hix0).
    { assert (exists q, In q obq) as (q & Hq) by (destruct obq as [|q r]; [cbn in NZ; congruence | exists q; left; reflexivity]).
      apply Hobq in Hq. destruct Hq as [Hq1 Hq2].
      destruct (sector l1 q) as [|r sr] eqn:Esr; [congruence|]. destruct (sector l2 (qinv q)) as [|c sc] eqn:Esc; [congruence|].
      assert (In (r ++ c) (allowed ls)) as Hi.
      { rewrite Els. apply (@allowed_pairs l1 l2 q); [rewrite Esr | rewrite Esc]; left; reflexivity. }
      apply In_sector in Hi. destruct Hi as [Hv Hc].
      exists (gather 0 (r ++ c) order). rewrite Erc. apply In_sector. split.
      - unfold ldims. rewrite (@map_gather _ _ _ _ _ _ 0) by (intros i Hi; rewrite Lls; apply (@is_perm_In _ _ i Hperm), Hi).
        apply valid_gather; [exact Hv|]. intros i Hi. rewrite map_length, Lls. apply (@is_perm_In _ _ i Hperm), Hi.
      - pose proof (valid_length Hv) as Lv. rewrite ldims_length, Lls in Lv.
        rewrite <- charge_of_unperm; [|rewrite Lls; exact Hperm | rewrite gather_length, Lls; exact Lo].
        rewrite unperm_gather by (rewrite Lv; exact Hperm). exact Hc. }
    fold w.
    destruct (Nat.eqb_spec p 0) as [P0|NP0].
    - (* all legs are columns *)
      assert (rl = []) as Nrl by (apply length_zero_iff_nil; lia).
      assert (skipn p ocs <> []) as NRo.
      { intros E0. apply (f_equal (@length bc)) in E0. rewrite skipn_length in E0. cbn in E0. lia. }
      destruct (fused_degens_spec lim_pos (@all_ok_skipn _ p ocs Hoks) ERo NRo) as (u & n & Ed & (U1 & U2 & U3 & U4 & U5) & _).
      rewrite Ecl in U4, U5. rewrite Ed. cbn [rbind fst snd]. rewrite Eid, <- U2.
      assert (In qid (rep u)) as Hid.
      { apply U4, In_charges_of. rewrite sector_flip, qinv_id. intros E0. rewrite Nrl in Hix0. cbn [app] in Hix0.
        unfold allowed in Hix0. rewrite E0 in Hix0. exact Hix0. }
      set (bq := isect [qid] (rep u)).
      assert (bq = [qid]) as Ebq.
      { unfold bq, isect. change (uniq [qid]) with [@qid G]. cbn [filter]. apply qmem_In in Hid. rewrite Hid. reflexivity. }
      assert (nth (index_of qdec qid (rep u)) n 0 = length (sector cl (qinv qid))) as En.
      { rewrite U5, (@nth_map_lt _ _ _ _ _ _ qid) by (apply index_of_lt, Hid). rewrite nth_index_of by exact Hid.
        rewrite count_sector, sector_flip. reflexivity. }
      assert (gather 0 n (locs_in (rep u) bq) = [length (sector cl (qinv qid))]) as Eds.
      { rewrite Ebq. unfold locs_in, gather. cbn [map]. rewrite En. reflexivity. }
      rewrite Eds. cbn [length Nat.eqb].
      destruct (@reduce_charges_spec _ (skipn p ocs) (map negb (skipn p ofs)) bq (Some (skipn p nst))) as (d & Er2 & V1 & V2 & V3);
        [apply all_ok_skipn, Hoks | exact ERo | exact NRo | intros st Hst; injection Hst as <-; rewrite !skipn_length; lia |].
      rewrite Er2. cbn [rbind fst snd]. rewrite Ecl in *. eexists. split; [reflexivity|].
      assert (0 < length bq) as Hbl by (rewrite Ebq; cbn; lia).
      rewrite (@reduce_mask (map flip cl) bq d (Some (skipn p nst)) 0 V1 V2 V3); [| |exists [qid], (rep u); reflexivity | exact Hbl].
      2: { intros q Hq. apply In_isect in Hq. apply U4, Hq. }
      unfold blocks_ok. cbn [bqs bmaps bdims]. rewrite rep_Lab_seq.
      split; [apply Lab_seq_ok, NoDup_isect|]. split; [reflexivity|]. split; [apply NoDup_isect|].
      rewrite Ebq. cbn [map nth]. split; [|split].
      + f_equal. unfold block. fold rl. fold cl. rewrite Nrl, sector_nil. destruct (qdec qid qid) as [_|]; [|congruence].
        cbn [flat_map]. rewrite app_nil_r, sector_flip, map_map. apply map_ext_in. intros c Hc. cbn [app].
        assert (In (unperm 0 order c) (allowed ls)) as Ha.
        { apply (Hallow qid [] c); [rewrite Nrl, sector_nil; destruct (qdec qid qid); [left; reflexivity | congruence] | exact Hc]. }
        rewrite Hpos by exact Ha. cbn [loc_of]. apply In_sector in Hc. destruct Hc as [Hc _]. apply valid_length in Hc.
        rewrite ldims_length in Hc. rewrite Hrav by lia. rewrite P0. reflexivity.
      + unfold block_shape. fold rl. fold cl. rewrite Nrl, sector_nil. destruct (qdec qid qid) as [_|]; [reflexivity | congruence].
      + split.
        * intros q Hq _. fold rl in Hq. rewrite Nrl, sector_nil in Hq. destruct (qdec qid q) as [<-|]; [left; reflexivity | congruence].
        * intros q [<-|[]]. split; [auto | lia].
    - destruct (Nat.eqb_spec p (length cs)) as [PN|NPN].
      + (* all legs are rows *)
        assert (cl = []) as Ncl by (apply length_zero_iff_nil; lia).
        assert (firstn p ocs <> []) as NLo.
        { intros E0. apply (f_equal (@length bc)) in E0. rewrite firstn_length in E0. cbn in E0. lia. }
        destruct (fused_degens_spec lim_pos (@all_ok_firstn _ p ocs Hoks) ELo NLo) as (u & n & Ed & (U1 & U2 & U3 & U4 & U5) & _).
        rewrite Erl in U4, U5. rewrite Ed. cbn [rbind fst snd]. rewrite Eid, <- U2.
        assert (In qid (rep u)) as Hid.
        { apply U4, In_charges_of. intros E0. rewrite Ncl, app_nil_r in Hix0.
          unfold allowed in Hix0. rewrite E0 in Hix0. exact Hix0. }
        set (bq := isect (rep u) [qid]).
        assert (bq = [qid]) as Ebq.
        { transitivity (isect [@qid G] (rep u)).
          - apply isect_eq. tauto.
          - unfold isect. change (uniq [qid]) with [@qid G]. cbn [filter]. apply qmem_In in Hid. rewrite Hid. reflexivity. }
        assert (nth (index_of qdec qid (rep u)) n 0 = length (sector rl qid)) as En.
        { rewrite U5, (@nth_map_lt _ _ _ _ _ _ qid) by (apply index_of_lt, Hid). rewrite nth_index_of by exact Hid.
          rewrite count_sector. reflexivity. }
        assert (gather 0 n (locs_in (rep u) bq) = [length (sector rl qid)]) as Eds.
        { rewrite Ebq. unfold locs_in, gather. cbn [map]. rewrite En. reflexivity. }
        rewrite Eds. cbn [length Nat.eqb].
        destruct (@reduce_charges_spec _ (firstn p ocs) (firstn p ofs) bq (Some (firstn p nst))) as (d & Er2 & V1 & V2 & V3);
          [apply all_ok_firstn, Hoks | exact ELo | exact NLo | intros st Hst; injection Hst as <-; rewrite !firstn_length; lia |].
        rewrite Er2. cbn [rbind fst snd]. rewrite Erl in *. eexists. split; [reflexivity|].
        assert (0 < length bq) as Hbl by (rewrite Ebq; cbn; lia).
        rewrite (@reduce_mask rl bq d (Some (firstn p nst)) 0 V1 V2 V3); [| |exists (rep u), [qid]; reflexivity | exact Hbl].
        2: { intros q Hq. apply In_isect in Hq. apply U4, Hq. }
        unfold blocks_ok. cbn [bqs bmaps bdims]. rewrite rep_Lab_seq.
        split; [apply Lab_seq_ok, NoDup_isect|]. split; [reflexivity|]. split; [apply NoDup_isect|].
        rewrite Ebq. cbn [map nth]. split; [|split].
        * f_equal. unfold block. fold rl. fold cl. rewrite Ncl, sector_nil, qinv_id. destruct (qdec qid qid) as [_|]; [|congruence].
          cbn [map]. rewrite map_map. rewrite flat_map_concat_map.
          rewrite concat_single.
          apply map_ext_in. intros r Hr. rewrite app_nil_r.
          assert (In (unperm 0 order (r ++ [])) (allowed ls)) as Ha.
          { apply (Hallow qid r []); [exact Hr|]. rewrite Ncl, sector_nil, qinv_id. destruct (qdec qid qid); [left; reflexivity | congruence]. }
          rewrite app_nil_r in Ha.
          rewrite Hpos by exact Ha. cbn [loc_of]. apply In_sector in Hr. destruct Hr as [Hr _]. apply valid_length in Hr.
          rewrite ldims_length in Hr. rewrite Hrav by lia.
          assert (firstn p nst = nst) as -> by (apply firstn_all2; lia). reflexivity.
        * unfold block_shape. fold rl. fold cl. rewrite Ncl, sector_nil, qinv_id. destruct (qdec qid qid) as [_|]; [reflexivity | congruence].
        * split.
          -- intros q _ Hq. fold cl in Hq. rewrite Ncl, sector_nil in Hq. destruct (qdec qid (qinv q)) as [E0|]; [|congruence].
             left. rewrite <- (qinv_inv q), <- E0. symmetry. apply qinv_id.
          -- intros q [<-|[]]. split; [auto | lia].
      + (* rows and columns *)
        assert (firstn p ocs <> []) as NLo.
        { intros E0. apply (f_equal (@length bc)) in E0. rewrite firstn_length in E0. cbn in E0. lia. }
        assert (skipn p ocs <> []) as NRo.
        { intros E0. apply (f_equal (@length bc)) in E0. rewrite skipn_length in E0. cbn in E0. lia. }
        destruct (fused_degens_spec lim_pos (@all_ok_firstn _ p ocs Hoks) ELo NLo) as (u & n & Ed & (U1 & U2 & U3 & U4 & U5) & _).
        destruct (fused_degens_spec lim_pos (@all_ok_skipn _ p ocs Hoks) ERo NRo) as (v & m & Em & (V1 & V2 & V3 & V4 & V5) & _).
        rewrite Erl in U4, U5. rewrite Ecl in V4, V5. rewrite Ed. cbn [rbind fst snd]. rewrite Em. cbn [rbind fst snd]. rewrite <- U2, <- V2.
        set (bq := isect (rep u) (rep v)).
        assert (forall q, In q bq <-> sector rl q <> [] /\ sector cl (qinv q) <> []) as Hbq.
        { intros q. unfold bq. rewrite In_isect, U4, V4, !In_charges_of, sector_flip. tauto. }
        destruct (@reduce_charges_spec _ (firstn p ocs) (firstn p ofs) bq (Some (firstn p nst))) as (dr & Er2 & W1 & W2 & W3);
          [apply all_ok_firstn, Hoks | exact ELo | exact NLo | intros st Hst; injection Hst as <-; rewrite !firstn_length; lia |].
        destruct (@reduce_charges_spec _ (skipn p ocs) (map negb (skipn p ofs)) bq (Some (skipn p nst))) as (dc & Er3 & X1 & X2 & X3);
          [apply all_ok_skipn, Hoks | exact ERo | exact NRo | intros st Hst; injection Hst as <-; rewrite !skipn_length; lia |].
        rewrite Er2. cbn [rbind fst snd]. rewrite Er3. cbn [rbind fst snd]. rewrite Erl, Ecl in *.
        eexists. split; [reflexivity|]. unfold blocks_ok. cbn [bqs bmaps bdims]. rewrite rep_Lab_seq.
        split; [apply Lab_seq_ok, NoDup_isect|]. split; [reflexivity|]. split; [apply NoDup_isect|]. split; [|split].
        * rewrite (@map_seq_nth _ _ (block ls order p) bq qid). apply map_ext_in. intros k Hk. apply in_seq in Hk.
          rewrite (@reduce_mask rl bq dr (Some (firstn p nst)) k W1 W2 W3); [| |exists (rep u), (rep v); reflexivity | lia].
          2: { intros q Hq. apply In_isect in Hq. apply U4, Hq. }
          rewrite (@reduce_mask (map flip cl) bq dc (Some (skipn p nst)) k X1 X2 X3); [| |exists (rep u), (rep v); reflexivity | lia].
          2: { intros q Hq. apply In_isect in Hq. apply V4, Hq. }
          set (q := nth k bq qid). rewrite sector_flip. unfold block. fold rl. fold cl. rewrite flat_map_map.
          apply flat_map_ext_in. intros r Hr. rewrite map_map. apply map_ext_in. intros c Hc.
          pose proof (Hallow q r c Hr Hc) as Ha. rewrite Hpos by exact Ha. cbn [loc_of].
          apply In_sector in Hr, Hc, Ha. destruct Hr as [Hr _], Hc as [Hc _], Ha as [Ha _].
          apply valid_length in Hr, Hc. rewrite ldims_length in Hr, Hc. rewrite Eld in Ha.
          set (a := unperm 0 order (r ++ repeat 0 (length cs - p))). set (b := unperm 0 order (repeat 0 p ++ c)).
          assert (dotp (firstn p nst) r = dotp (strides_of dims) a) as Ea.
          { unfold a. rewrite <- (@dotp_unperm (length cs)); [|exact Hperm | rewrite strides_of_length; exact Ldims | rewrite app_length, repeat_length; lia].
            fold nst. rewrite <- (firstn_skipn p nst) at 2. rewrite dotp_app by (rewrite firstn_length; lia). rewrite dotp_zeros. lia. }
          assert (dotp (skipn p nst) c = dotp (strides_of dims) b) as Eb.
          { unfold b. rewrite <- (@dotp_unperm (length cs)); [|exact Hperm | rewrite strides_of_length; exact Ldims | rewrite app_length, repeat_length; lia].
            fold nst. rewrite <- (firstn_skipn p nst) at 2. rewrite dotp_app by (rewrite firstn_length, repeat_length; lia). rewrite dotp_zeros. lia. }
          rewrite Ea, Eb.
          assert (dims = firstn op dims ++ skipn op dims) as Edims by (symmetry; apply firstn_skipn).
          destruct (@no_carry (firstn op dims) (skipn op dims) a b (unperm 0 order (r ++ c))) as [N1 N2].
          -- rewrite <- Edims. exact Ha.
          -- rewrite <- Edims. unfold a. rewrite unperm_length. lia.
          -- rewrite <- Edims. unfold b. rewrite unperm_length. lia.
          -- rewrite <- Edims. intros i Hi. unfold a, b. rewrite !nth_unperm by lia.
             assert (nindex i order < length order) as Hn by (apply index_of_lt, (@is_perm_In _ _ i Hperm); lia).
             destruct (Nat.lt_ge_cases (nindex i order) p) as [Hl|Hl].
             ++ rewrite !app_nth1 by (rewrite ?repeat_length; lia). rewrite nth_repeat. lia.
             ++ rewrite !app_nth2 by (rewrite ?repeat_length; lia). rewrite nth_repeat, repeat_length. rewrite Hr, Lrl. reflexivity.
          -- rewrite <- Edims in N1, N2. fold w in N1, N2. rewrite N1, N2. reflexivity.
        * unfold locs_in, gather. rewrite !map_map.
          assert (forall q, In q bq -> In q (rep u) /\ In q (rep v)) as Hin by (intros q Hq; apply In_isect, Hq).
          clear - U4 U5 V4 V5 Hin. clearbody bq.
          induction bq as [|q r IH]; [reflexivity|]. cbn [map combine]. f_equal.
          -- destruct (Hin q (or_introl eq_refl)) as [I1 I2]. unfold block_shape. fold rl. fold cl. f_equal.
             ++ rewrite U5, (@nth_map_lt _ _ _ _ _ _ qid) by (apply index_of_lt, I1). rewrite nth_index_of by exact I1. apply count_sector.
             ++ rewrite V5, (@nth_map_lt _ _ _ _ _ _ qid) by (apply index_of_lt, I2). rewrite nth_index_of by exact I2.
                rewrite count_sector, sector_flip. reflexivity.
          -- apply IH. intros q' Hq'. apply Hin. right. exact Hq'.
        * split; [intros q Hq1 Hq2; apply Hbq; auto|]. intros q Hq. split; [lia|]. intros _. apply Hbq, Hq.
  Qed.
End Tr.
