(** * BlockReduce: number of stored entries, unique fused charges, reduced charges and locations *)
From Coq Require Import Sorting.Sorted Permutation.
From Verif Require Import Prelude Algebra Tensor TensorFacts Res Charge ChargeFacts BlockSparse BlockSpec ListFacts BlockFacts BlockDegen.
Set Implicit Arguments.
Unset Strict Implicit.

(** position of an index tuple for given strides *)
Definition dotp (st ix : list nat) : nat := list_sum (map (fun p => fst p * snd p) (combine st ix)).
Lemma dotp_app s1 s2 a b : length a = length s1 -> dotp (s1 ++ s2) (a ++ b) = dotp s1 a + dotp s2 b.
Proof.
  revert a. induction s1 as [|s r IH]; intros [|i a] H; cbn in H; try discriminate; [reflexivity|].
  change (s * i + dotp (r ++ s2) (a ++ b) = s * i + dotp r a + dotp s2 b). rewrite IH by congruence. lia.
Qed.
Lemma idxs_ravel s : map (ravel s) (idxs s) = seq 0 (nprod s).
Proof.
  rewrite idxs_unravel, map_map. rewrite <- (map_id (seq 0 (nprod s))) at 2. apply map_ext_in. intros k Hk.
  apply in_seq in Hk. apply ravel_unravel. lia.
Qed.
Lemma flatnonzero_masked bs : flatnonzero bs = masked 0 (seq 0 (length bs)) bs.
Proof.
  unfold masked, gather. rewrite <- (map_id (flatnonzero bs)) at 1. apply map_ext_in. intros j Hj.
  apply flatnonzero_lt in Hj. rewrite seq_nth by exact Hj. reflexivity.
Qed.
Lemma flatnonzero_idxs (p : list nat -> bool) s : flatnonzero (map p (idxs s)) = map (ravel s) (filter p (idxs s)).
Proof. rewrite flatnonzero_masked, map_length, length_idxs, <- idxs_ravel. apply masked_map2. Qed.
Lemma fuse_stride_arrays_spec dims st : length st = length dims -> dims <> [] ->
  fuse_stride_arrays dims st = map (dotp st) (idxs dims).
Proof.
  intros E Hne. unfold fuse_stride_arrays, fuse_arrays. destruct dims as [|d dims]; [congruence|].
  destruct st as [|s st]; [discriminate|]. cbn [combine map fst snd].
  assert (forall dims st d1 s1, length st = length dims -> length s1 = length d1 ->
    fold_left (fun acc b => flat_map (fun x => map (fun y => x + y) b) acc)
      (map (fun ds => map (fun i => snd ds * i) (seq 0 (fst ds))) (combine dims st)) (map (dotp s1) (idxs d1)) =
    map (dotp (s1 ++ st)) (idxs (d1 ++ dims))) as H.
  { clear. intros dims. induction dims as [|d dims IH]; intros [|s st] d1 s1 E E1; cbn in E; try discriminate.
    - cbn. rewrite !app_nil_r. reflexivity.
    - cbn [combine map fold_left fst snd].
      assert (flat_map (fun x => map (fun y => x + y) (map (fun i => s * i) (seq 0 d))) (map (dotp s1) (idxs d1)) =
        map (dotp (s1 ++ [s])) (idxs (d1 ++ [d]))) as ->.
      { rewrite flat_map_map, idxs_app, map_flat_map. apply flat_map_ext_in. intros a Ha.
        rewrite idxs_single, !map_map. apply map_ext. intros i. apply In_idxs, valid_length in Ha.
        rewrite dotp_app by congruence. unfold dotp at 3. cbn. lia. }
      rewrite IH by (rewrite ?app_length; cbn; congruence). rewrite <- !app_assoc. reflexivity. }
  assert (map (fun i => s * i) (seq 0 d) = map (dotp [s]) (idxs [d])) as ->.
  { rewrite idxs_single, map_map. apply map_ext. intros i. unfold dotp. cbn. lia. }
  cbn in E. rewrite (H dims st [d] [s]) by (cbn; congruence). reflexivity.
Qed.
Lemma length_le1 A (l : list A) : NoDup l -> (forall x y, In x l -> In y l -> x = y) -> length l <= 1.
Proof.
  intros H Heq. destruct l as [|x [|y r]]; cbn; try lia. exfalso.
  inversion H as [|? ? Hx _]; subst. apply Hx. rewrite (Heq x y) by (cbn; auto). left. reflexivity.
Qed.
Lemma nth_flat_map_grid A B (f : A -> list B) l w i j d d' : (forall x, In x l -> length (f x) = w) ->
  i < length l -> j < w -> nth (i * w + j) (flat_map f l) d = nth j (f (nth i l d')) d.
Proof.
  revert i. induction l as [|x r IH]; intros i H Hi Hj; cbn in Hi; [lia|].
  cbn [flat_map]. destruct i as [|i].
  - cbn. apply app_nth1. rewrite H by (left; reflexivity). exact Hj.
  - rewrite app_nth2 by (rewrite H by (left; reflexivity); lia). rewrite H by (left; reflexivity).
    replace (S i * w + j - w) with (i * w + j) by lia. apply IH; [|lia|exact Hj]. intros; apply H; right; assumption.
Qed.

Section Reduce.
  Context {G : chg}.
  Notation bc := (bc G).
  Implicit Types (ls l : list (leg G)) (cs : list bc) (fs : list bool) (q x y : G).

  Lemma count_sector ls q : count_occ qdec (charges_of ls) q = length (sector ls q).
  Proof.
    rewrite count_occ_nsumf. unfold charges_of, sector. rewrite nsumf_map, length_filter_nsumf.
    apply nsumf_ext. intros ix _. destruct (qdec _ q); reflexivity.
  Qed.
  Lemma In_charges_of ls q : In q (charges_of ls) <-> sector ls q <> [].
  Proof.
    rewrite (count_occ_In qdec), count_sector. destruct (sector ls q); cbn; split; intros; try lia; congruence.
  Qed.
  Lemma flatnonzero_is_q (q : G) (u : list G) : NoDup u ->
    flatnonzero (map (is_q q) u) = if in_dec qdec q u then [index_of qdec q u] else [].
  Proof.
    intros Hu. assert (length (flatnonzero (map (is_q q) u)) <= 1) as L1.
    { apply length_le1; [apply NoDup_flatnonzero|]. intros i j Hi Hj.
      apply In_flatnonzero in Hi, Hj. rewrite map_length in Hi, Hj. destruct Hi as [Hi Ei], Hj as [Hj Ej].
      rewrite (@nth_map_lt _ _ _ _ _ _ qid) in Ei by assumption. rewrite (@nth_map_lt _ _ _ _ _ _ qid) in Ej by assumption. unfold is_q in *.
      destruct (qdec (nth i u qid) q) as [E1|]; [|discriminate]. destruct (qdec (nth j u qid) q) as [E2|]; [|discriminate].
      apply (NoDup_nth u qid); try assumption. congruence. }
    destruct (in_dec qdec q u) as [Hq|Hq].
    - assert (In (index_of qdec q u) (flatnonzero (map (is_q q) u))) as Hi.
      { apply In_flatnonzero. rewrite map_length. assert (index_of qdec q u < length u) as Hl by (apply index_of_lt, Hq).
        split; [exact Hl|]. rewrite (@nth_map_lt _ _ _ _ _ _ qid) by exact Hl. rewrite nth_index_of by exact Hq.
        unfold is_q. destruct (qdec q q); congruence. }
      destruct (flatnonzero (map (is_q q) u)) as [|k [|k' r]]; cbn in L1; try lia; [destruct Hi|].
      destruct Hi as [->|[]]. reflexivity.
    - destruct (flatnonzero (map (is_q q) u)) as [|k r] eqn:E; [reflexivity|]. exfalso.
      assert (In k (flatnonzero (map (is_q q) u))) as Hk by (rewrite E; left; reflexivity).
      apply In_flatnonzero in Hk. rewrite map_length in Hk. destruct Hk as [Hk Ek].
      rewrite (@nth_map_lt _ _ _ _ _ _ qid) in Ek by assumption. unfold is_q in Ek.
      destruct (qdec (nth k u qid) q) as [E1|]; [|discriminate]. apply Hq. rewrite <- E1. apply nth_In, Hk.
  Qed.

  Lemma unique_fused_spec cs fs : all_ok cs -> length cs = length fs -> cs <> [] ->
    exists u, unique_fused cs fs = Ok u /\ bc_ok u /\ rep u = uniques u /\
      (forall x, In x (rep u) <-> In x (charges_of (legs cs fs))) /\ fused_uniques cs fs (uniques u).
  Proof.
    intros Hok E Hne. unfold unique_fused. destruct cs as [|c cs]; [congruence|]. destruct fs as [|f fs]; [discriminate|].
    cbn in E. destruct (Nat.leb_spec (length cs) (length fs)); [|lia]. eexists. split; [reflexivity|].
    assert (forall d, bc_ok d -> bc_ok (unique_only d) /\ rep (unique_only d) = uniques (unique_only d) /\
      uniques (unique_only d) = uniques d /\ (forall x, In x (rep (unique_only d)) <-> In x (rep d))) as Hu.
    { intros d Hd. pose proof (bunique_degens Hd) as D. unfold unique_only. destruct (bunique d) as [[u inv] n]. cbn [fst].
      destruct D as ((D1 & D2 & _ & D4 & _) & D5). auto. }
    assert (forall cs fs acc l1, all_ok cs -> length cs = length fs -> bc_ok acc -> rep acc = uniques acc ->
      (forall x, In x (rep acc) <-> In x (charges_of l1)) ->
      let r := fold_left (fun acc cf => unique_only (badd acc (dual (unique_only (fst cf)) (snd cf)))) (combine cs fs) acc in
      bc_ok r /\ rep r = uniques r /\ (forall x, In x (rep r) <-> In x (charges_of (l1 ++ legs cs fs))) /\
      (cs <> [] -> uniques r = uniq (charges_of (l1 ++ legs cs fs))) /\ (cs = [] -> r = acc)) as Hf.
    { clear - Hu. intros cs. induction cs as [|c cs IH]; intros [|f fs] acc l1 Hok E Ha Hr Hx; cbn in E; try discriminate.
      - cbn. rewrite app_nil_r. repeat (split; try assumption); auto; try apply Hx; congruence.
      - cbn [combine fold_left fst snd]. cbv zeta.
        assert (bc_ok c) as Hc by (apply Hok; left; reflexivity).
        destruct (Hu c Hc) as (U1 & _ & _ & U4).
        set (b := badd acc (dual (unique_only c) f)).
        destruct (Hu b I) as (V1 & V2 & V3 & V4).
        assert (forall x, In x (rep b) <-> In x (charges_of (l1 ++ [(rep c, f)]))) as Hb.
        { intros x. unfold b. rewrite rep_badd, charges_of_app, charges_of_single by exact Hc. rewrite !In_fuse2.
          assert (forall y, In y (rep (dual (unique_only c) f)) <-> In y (rep (dual c f))) as Hd.
          { intros y. rewrite !rep_dual by assumption. destruct f; [|apply U4].
            rewrite !in_map_iff. split; intros (z & <- & Hz); exists z; rewrite U4 in *; auto. }
          split; intros (y & z & Hy & Hz & ->); exists y, z; rewrite ?Hx, ?Hd in *; auto. }
        destruct (IH fs (unique_only b) (l1 ++ [(rep c, f)])) as (H1 & H2 & H3 & H4 & H5).
        + intros x Hi. apply Hok. right. exact Hi.
        + congruence.
        + exact V1.
        + exact V2.
        + intros x. rewrite V4. apply Hb.
        + rewrite <- app_assoc in *. cbn [app] in *. split; [exact H1|]. split; [exact H2|]. split; [exact H3|].
          split; [|discriminate]. intros _. destruct cs as [|c2 cs].
          * rewrite (H5 eq_refl), V3. destruct fs; [|discriminate]. unfold b at 1. cbn [uniques badd].
            apply uniq_ext. intros x. apply (Hb x).
          * apply H4. discriminate. }
    assert (bc_ok c) as Hc by (apply Hok; left; reflexivity).
    destruct (Hu (dual c f) (@dual_ok _ c f Hc)) as (U1 & U2 & U3 & U4).
    destruct (Hf cs fs (unique_only (dual c f)) [(rep c, f)]) as (H1 & H2 & H3 & H4 & H5); try assumption.
    - intros x Hx. apply Hok. right. exact Hx.
    - congruence.
    - intros x. rewrite U4, charges_of_single by exact Hc. reflexivity.
    - split; [exact H1|]. split; [exact H2|]. split; [exact H3|]. unfold fused_uniques.
      destruct cs as [|c2 cs]; destruct fs as [|f2 fs]; cbn in E; try discriminate.
      + rewrite (H5 eq_refl). exact U3.
      + apply H4. discriminate.
  Qed.

  Lemma qmem_ext x (a b : list G) : (In x a <-> In x b) -> qmem x a = qmem x b.
  Proof.
    intros H. destruct (qmem x a) eqn:Ea, (qmem x b) eqn:Eb; auto.
    - apply qmem_In, H, qmem_In in Ea. congruence.
    - apply qmem_In, H, qmem_In in Eb. congruence.
  Qed.

  (** kept index tuples and their locations *)
  Definition kept ls (targets : list G) : list (list nat) :=
    filter (fun ix => qmem (charge_of ls ix) targets) (idxs (ldims ls)).
  Definition loc_of ls (strides : option (list nat)) (ix : list nat) : nat :=
    match strides with Some st => dotp st ix | None => ravel (ldims ls) ix end.

  Lemma kept_app l1 l2 targets : kept (l1 ++ l2) targets =
    flat_map (fun r => map (fun c => r ++ c) (filter (fun c => qmem (qop (charge_of l1 r) (charge_of l2 c)) targets) (idxs (ldims l2))))
      (idxs (ldims l1)).
  Proof.
    unfold kept. rewrite ldims_app, idxs_app, filter_flat_map. apply flat_map_ext_in.
    intros r Hr. apply In_idxs, valid_length in Hr. rewrite ldims_length in Hr.
    rewrite filter_map_comm. f_equal. apply filter_ext. intros c. rewrite charge_of_app by exact Hr. reflexivity.
  Qed.

  Lemma reduce_charges_spec cs fs targets strides : all_ok cs -> length cs = length fs -> cs <> [] ->
    (forall st, strides = Some st -> length st = length cs) ->
    exists d, reduce_charges cs fs targets strides = Ok (d, map (loc_of (legs cs fs) strides) (kept (legs cs fs) targets)) /\
      bc_ok d /\ uniques d = isect (charges_of (legs cs fs)) targets /\
      rep d = filter (fun x => qmem x targets) (charges_of (legs cs fs)).
  Proof.
    intros Hok E Hne Hst. unfold reduce_charges.
    destruct (Nat.eqb_spec (length cs) 1) as [E1|N1].
    - destruct cs as [|c [|c2 cs]]; cbn in E1; try discriminate. destruct fs as [|f [|f2 fs]]; cbn in E; try discriminate.
      assert (bc_ok c) as Hc by (apply Hok; left; reflexivity).
      set (k := match strides with Some s => nth 0 s 0 | None => 1 end).
      destruct (@breduce_spec _ (dual c f) targets k (@dual_ok _ c f Hc)) as (d & R1 & R2 & R3 & R4).
      exists d. assert (charges_of (legs [c] [f]) = rep (dual c f)) as Ech by apply charges_of_single, Hc.
      rewrite R1, Ech. split; [|auto]. f_equal. f_equal. unfold kept.
      rewrite ldims_legs by reflexivity. cbn [map]. rewrite idxs_single, filter_map_comm, map_map.
      assert (bdim (dual c f) = bdim c) as Ed by (destruct f, c; cbn; try rewrite map_length; reflexivity).
      rewrite Ed. rewrite (@filter_ext_in _ _ (fun i => qmem (charge_of (legs [c] [f]) [i]) targets)).
      + apply map_ext. intros i. unfold loc_of, k. destruct strides as [st|].
        * specialize (Hst st eq_refl). destruct st as [|s [|s2 st]]; cbn in Hst; try discriminate. unfold dotp. cbn. lia.
        * rewrite ldims_legs by reflexivity. cbn. lia.
      + intros i Hi. apply in_seq in Hi. f_equal. rewrite <- Ech. unfold charges_of.
        rewrite ldims_legs by reflexivity. cbn [map]. rewrite idxs_single, map_map.
        rewrite nth_map_seq by lia. reflexivity.
    - assert (2 <= length cs) as H2 by (destruct cs as [|? [|? ?]]; cbn in *; try congruence; lia).
      cbv zeta. set (dims := map (fun c => bdim c) cs).
      destruct (@find_best_partition_ok dims) as (p & Ep & Hp1 & Hp2); [unfold dims; rewrite map_length; exact H2|].
      unfold dims in Hp2. rewrite map_length in Hp2. rewrite Ep. cbn [rbind].
      assert (length (firstn p cs) = length (firstn p fs)) as EL by (rewrite !firstn_length; lia).
      assert (length (skipn p cs) = length (skipn p fs)) as ER by (rewrite !skipn_length; lia).
      destruct (@fuse_charges_spec _ (firstn p cs) (firstn p fs)) as (L & L1 & L2 & L3 & _).
      { apply all_ok_firstn, Hok. } { exact EL. }
      { intros E0. apply (f_equal (@length bc)) in E0. rewrite firstn_length in E0. cbn in E0. lia. }
      destruct (@fuse_charges_spec _ (skipn p cs) (skipn p fs)) as (R & R1 & R2 & R3 & _).
      { apply all_ok_skipn, Hok. } { exact ER. }
      { intros E0. apply (f_equal (@length bc)) in E0. rewrite skipn_length in E0. cbn in E0. lia. }
      rewrite L1. cbn [rbind]. rewrite R1. cbn [rbind].
      set (l1 := legs (firstn p cs) (firstn p fs)) in *. set (l2 := legs (skipn p cs) (skipn p fs)) in *.
      assert (legs cs fs = l1 ++ l2) as Els.
      { unfold l1, l2. rewrite <- legs_app by exact EL. rewrite !firstn_skipn. reflexivity. }
      rewrite Els.
      assert (ldims l1 = firstn p dims) as D1 by (unfold l1, dims; rewrite ldims_legs by exact EL; symmetry; apply firstn_map).
      assert (ldims l2 = skipn p dims) as D2 by (unfold l2, dims; rewrite ldims_legs by exact ER; symmetry; apply skipn_map).
      set (comb := fuse2 (uniques L) (uniques R)).
      assert (forall x, In x comb <-> In x (charges_of (l1 ++ l2))) as Hcomb.
      { intros x. unfold comb. rewrite charges_of_app, <- L3, <- R3, !In_fuse2.
        split; intros (y & z & Hy & Hz & ->); exists y, z; rewrite !In_uniques in * by assumption; auto. }
      destruct ((length comb =? 0) || (length (labels L) =? 0) || (length (labels R) =? 0)) eqn:Eemp.
      + assert (charges_of (l1 ++ l2) = []) as Z.
        { destruct (charges_of (l1 ++ l2)) as [|x r] eqn:Ec; [reflexivity|]. exfalso.
          assert (In x comb) as Hx by (apply Hcomb; left; reflexivity).
          assert (length comb <> 0) as N0 by (destruct comb; [destruct Hx | discriminate]).
          rewrite charges_of_app, <- L3, <- R3 in Ec.
          assert (length (rep L) <> 0) as NL by (destruct (rep L); [discriminate | discriminate]).
          assert (length (rep R) <> 0) as NR.
          { destruct (rep R); [|discriminate]. cbn in Ec. unfold fuse2 in Ec. cbn in Ec. rewrite flat_map_nil in Ec. discriminate. }
          rewrite !labels_length, !bdim_rep in Eemp. apply Nat.eqb_neq in N0, NL, NR.
          rewrite N0, NL, NR in Eemp. discriminate. }
        exists (Lab [] []). rewrite Z. split.
        * unfold kept. assert (idxs (ldims (l1 ++ l2)) = []) as ->; [|reflexivity].
          apply length_zero_iff_nil. rewrite length_idxs, <- charges_of_length, Z. reflexivity.
        * split; [|split; reflexivity]. split; [constructor|]. intros i. cbn. split; [tauto | lia].
      + clear Eemp.
        set (uc := uniq comb). set (rq := isect uc targets). set (l2u := locs_in uc rq).
        assert (forall n, n < length (uniques L) ->
          map (fun m => nth (nth (n * num_unique R + m) (inverse comb) 0) (inv_map (length uc) l2u) None) (labels R) =
          map (fun y => if qmem (qop (nth n (uniques L) qid) y) targets
                        then Some (index_of qdec (qop (nth n (uniques L) qid) y) rq) else None) (rep R)) as Htemp.
        { intros n Hn. rewrite (rep_uniques R). unfold gather. rewrite map_map. apply map_ext_in. intros m Hm.
          assert (m < length (uniques R)) as Hm' by (apply labels_lt; assumption).
          set (x := qop (nth n (uniques L) qid) (nth m (uniques R) qid)).
          assert (In x uc) as Hx.
          { apply In_uniq, In_fuse2. do 2 eexists. split; [|split; [|reflexivity]]; apply nth_In; assumption. }
          assert (nth (n * num_unique R + m) (inverse comb) 0 = index_of qdec x uc) as ->.
          { unfold inverse. fold uc. unfold comb, fuse2. rewrite map_flat_map.
            rewrite (@nth_flat_map_grid _ _ _ _ (length (uniques R)) n m 0 qid); try assumption.
            - rewrite map_map. rewrite (@nth_map_lt _ _ _ _ _ _ qid) by exact Hm'. reflexivity.
            - intros. rewrite !map_length. reflexivity. }
          rewrite nth_inv_map by (apply index_of_lt, Hx).
          assert (mem (index_of qdec x uc) l2u = qmem x targets) as ->.
          { destruct (qmem x targets) eqn:Et.
            - apply mem_In. unfold l2u, locs_in. apply (in_map (fun x => index_of qdec x uc)). apply In_isect.
              split; [exact Hx | apply qmem_In, Et].
            - apply mem_nIn. unfold l2u, locs_in. rewrite in_map_iff. intros (y & Ey & Hy). apply In_isect in Hy.
              assert (y = x) as ->.
              { rewrite <- (@nth_index_of _ qdec y uc qid), Ey by apply Hy. apply nth_index_of, Hx. }
              destruct Hy as [_ Hy]. apply qmem_In in Hy. congruence. }
          destruct (qmem x targets) eqn:Et; [|reflexivity]. f_equal. unfold l2u, locs_in.
          apply (@index_of_map_inj _ _ qdec Nat.eq_dec (fun x => index_of qdec x uc)).
          intros y Hy Ey. apply In_isect in Hy. rewrite <- (@nth_index_of _ qdec y uc qid), Ey by apply Hy.
          apply nth_index_of, Hx. }
        assert (forall A (F : G -> list A), flat_map (fun n => nth n (map (fun k => F (nth k (uniques L) qid)) (seq 0 (num_unique L))) []) (labels L) =
          flat_map F (rep L)) as HL.
        { intros A F. rewrite (rep_uniques L). unfold gather. rewrite flat_map_map. apply flat_map_ext_in. intros n Hn.
          rewrite nth_map_seq by (apply labels_lt; assumption). reflexivity. }
        set (LL := flat_map (fun a => map (fun y => index_of qdec (qop a y) rq) (filter (fun y => qmem (qop a y) targets) (rep R))) (rep L)).
        assert (LL = map (fun x => index_of qdec x rq) (filter (fun x => qmem x targets) (charges_of (l1 ++ l2)))) as ELL.
        { unfold LL. rewrite charges_of_app, <- L3, <- R3. unfold fuse2. rewrite filter_flat_map, map_flat_map.
          apply flat_map_ext_in. intros a _. rewrite filter_map_comm, map_map. reflexivity. }
        assert (forall x, In x (filter (fun x => qmem x targets) (charges_of (l1 ++ l2))) <-> In x rq) as Hrq.
        { intros x. rewrite filter_In, qmem_In, <- Hcomb. unfold rq. rewrite In_isect. unfold uc. rewrite In_uniq. tauto. }
        exists (Lab rq LL). split; [|split; [|split]].
        * f_equal. f_equal; [f_equal|].
          -- unfold LL. rewrite <- HL with (F := fun a => map (fun y => index_of qdec (qop a y) rq) (filter (fun y => qmem (qop a y) targets) (rep R))).
             apply flat_map_ext_in. intros n Hn. f_equal. apply map_ext_in. intros k Hk. apply in_seq in Hk.
             rewrite Htemp by (unfold num_unique in Hk; lia). apply somes_if.
          -- assert (forall rp cp : list nat -> nat,
               flat_map (fun n => map (fun j => nth n (map rp (idxs (ldims l1))) 0 + j)
                 (nth (nth n (labels L) 0) (map (fun n0 => masked 0 (map cp (idxs (ldims l2)))
                   (map isSome (map (fun m => nth (nth (n0 * num_unique R + m) (inverse comb) 0) (inv_map (length uc) l2u) None) (labels R))))
                   (seq 0 (num_unique L))) [])) (seq 0 (bdim L)) =
               flat_map (fun r => map (fun c => rp r + cp c)
                 (filter (fun c => qmem (qop (charge_of l1 r) (charge_of l2 c)) targets) (idxs (ldims l2)))) (idxs (ldims l1))) as Hloc.
             { intros rp cp.
               assert (bdim L = length (idxs (ldims l1))) as EbL.
               { rewrite bdim_rep, L3. unfold charges_of. apply map_length. }
               rewrite EbL.
               match goal with |- _ = flat_map ?g (idxs (ldims l1)) => transitivity (flat_map g (gather [] (idxs (ldims l1)) (seq 0 (length (idxs (ldims l1)))))) end;
                 [|rewrite gather_seq; reflexivity].
               unfold gather. rewrite flat_map_map.
               apply flat_map_ext_in. intros n Hn. apply in_seq in Hn.
               set (r := nth n (idxs (ldims l1)) []).
               assert (nth n (labels L) 0 < length (uniques L)) as Hl.
               { apply labels_lt; [exact L2|]. apply nth_In. rewrite labels_length, EbL. lia. }
               assert (nth (nth n (labels L) 0) (uniques L) qid = charge_of l1 r) as Hu.
               { transitivity (nth n (rep L) qid).
                 - rewrite (rep_uniques L). rewrite nth_gather by (rewrite labels_length, EbL; lia). reflexivity.
                 - rewrite L3. unfold charges_of. rewrite (@nth_map_lt _ _ _ _ _ _ []) by lia. reflexivity. }
               rewrite nth_map_seq by exact Hl. rewrite Htemp by exact Hl. rewrite Hu.
               rewrite (@nth_map_lt _ _ _ _ _ _ []) by lia. fold r.
               rewrite R3. unfold charges_of. rewrite !map_map.
               rewrite (@map_ext _ _ _ (fun c => qmem (qop (charge_of l1 r) (charge_of l2 c)) targets))
                 by (intros c; destruct (qmem _ targets); reflexivity).
               rewrite masked_map2, map_map. reflexivity. }
             destruct strides as [st|].
             ++ specialize (Hst st eq_refl).
                assert (fuse_stride_arrays (firstn p dims) (firstn p st) = map (dotp (firstn p st)) (idxs (ldims l1))) as ->.
                { rewrite D1. apply fuse_stride_arrays_spec.
                  - unfold dims. rewrite !firstn_length, map_length. lia.
                  - intros E0. apply (f_equal (@length nat)) in E0. unfold dims in E0. rewrite firstn_length, map_length in E0. cbn in E0. lia. }
                assert (fuse_stride_arrays (skipn p dims) (skipn p st) = map (dotp (skipn p st)) (idxs (ldims l2))) as ->.
                { rewrite D2. apply fuse_stride_arrays_spec.
                  - unfold dims. rewrite !skipn_length, map_length. lia.
                  - intros E0. apply (f_equal (@length nat)) in E0. unfold dims in E0. rewrite skipn_length, map_length in E0. cbn in E0. lia. }
                rewrite Hloc. rewrite kept_app, map_flat_map. apply flat_map_ext_in. intros r Hr. rewrite map_map.
                apply map_ext. intros c. cbn [loc_of]. apply In_idxs, valid_length in Hr.
                rewrite <- dotp_app.
                ** rewrite firstn_skipn. reflexivity.
                ** rewrite Hr, D1. unfold dims. rewrite !firstn_length, map_length. lia.
             ++ rewrite kept_app, map_flat_map.
                transitivity (flat_map (fun r => map (fun c => ravel (ldims l1) r * nprod (ldims l2) + ravel (ldims l2) c)
                 (filter (fun c => qmem (qop (charge_of l1 r) (charge_of l2 c)) targets) (idxs (ldims l2)))) (idxs (ldims l1))).
                ** rewrite <- Hloc with (rp := fun r => ravel (ldims l1) r * nprod (ldims l2)) (cp := ravel (ldims l2)).
                   apply flat_map_ext_in. intros n Hn. apply in_seq in Hn.
                   assert (bdim L = nprod (ldims l1)) as EbL by (rewrite bdim_rep, L3; apply charges_of_length).
                   assert (bdim R = nprod (ldims l2)) as EbR by (rewrite bdim_rep, R3; apply charges_of_length).
                   rewrite <- map_map with (f := ravel (ldims l1)) (g := fun k => k * nprod (ldims l2)).
                   rewrite !idxs_ravel, (nth_map_seq (fun k => k * nprod (ldims l2))) by lia. rewrite <- EbR. f_equal. f_equal.
                   apply map_ext. intros k. rewrite flatnonzero_masked, !map_length, labels_length. reflexivity.
                ** apply flat_map_ext_in. intros r Hr. rewrite map_map. apply map_ext. intros c. cbn [loc_of].
                   apply In_idxs, valid_length in Hr. rewrite ldims_app, ravel_app by exact Hr. reflexivity.
        * split; [apply NoDup_isect|]. intros i. rewrite ELL, in_map_iff. split.
          -- intros (x & <- & Hx). apply index_of_lt, Hrq, Hx.
          -- intros Hi. exists (nth i rq qid). split; [apply index_of_nth; [apply NoDup_isect | exact Hi]|].
             apply Hrq, nth_In, Hi.
        * cbn [uniques]. unfold rq, uc. apply isect_ext; [|tauto]. intros x. rewrite In_uniq. apply Hcomb.
        * cbn [rep]. rewrite ELL. apply gather_index. intros x Hx. apply Hrq, Hx.
  Qed.

  Variable lim : nat.
  Hypothesis lim_pos : 0 < lim.
  Lemma num_nonzero_spec cs fs : all_ok cs -> length cs = length fs -> cs <> [] ->
    num_nonzero lim cs fs = Ok (length (allowed (legs cs fs))).
  Proof.
    intros Hok E Hne. unfold num_nonzero.
    destruct (existsb (fun c => bdim c =? 0) cs) eqn:Ex.
    - f_equal. unfold allowed, sector. symmetry. apply length_zero_iff_nil.
      assert (nprod (ldims (legs cs fs)) = 0) as Z.
      { rewrite ldims_legs by exact E. clear -Ex. induction cs as [|c r IH]; cbn in Ex; [discriminate|]. cbn [map]. change (bdim c * nprod (map (fun c => bdim c) r) = 0).
        apply orb_true_iff in Ex. destruct Ex as [Ex|Ex]; [apply Nat.eqb_eq in Ex; rewrite Ex; reflexivity | rewrite IH by exact Ex; lia]. }
      rewrite <- length_idxs in Z. apply length_zero_iff_nil in Z. rewrite Z. reflexivity.
    - destruct (fused_degens_spec lim_pos Hok E Hne) as (u & n & Ed & (D1 & D2 & D3 & D4 & D5) & _).
      rewrite Ed. cbn [rbind fst snd]. rewrite flatnonzero_is_q by exact D3.
      unfold allowed. rewrite <- count_sector.
      destruct (in_dec qdec qid (rep u)) as [Hq|Hq].
      + f_equal. rewrite D5. assert (index_of qdec qid (rep u) < length (rep u)) as Hl by (apply index_of_lt, Hq).
        rewrite (@nth_map_lt _ _ _ _ _ _ qid) by exact Hl. rewrite nth_index_of by exact Hq. reflexivity.
      + f_equal. symmetry. apply count_occ_not_In. intros H. apply Hq, D4, H.
  Qed.
End Reduce.
