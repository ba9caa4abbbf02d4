(** * BlockFacts: the charge bookkeeping of BlockSparse.v computes BlockSpec.v *)
From Coq Require Import Sorting.Sorted Permutation.
From Verif Require Import Prelude Algebra Tensor TensorFacts Res Charge ChargeFacts BlockSparse BlockSpec ListFacts.
Set Implicit Arguments.
Unset Strict Implicit.

Section Facts.
  Context {G : chg}.
  Notation bc := (bc G).
  Implicit Types (ls l : list (leg G)) (cs : list bc) (fs : list bool) (q x y : G).

  (** ** the specification *)
  Lemma ldims_length ls : length (ldims ls) = length ls.
  Proof. apply map_length. Qed.
  Lemma ldims_app l1 l2 : ldims (l1 ++ l2) = ldims l1 ++ ldims l2.
  Proof. apply map_app. Qed.
  Lemma ldims_flip ls : ldims (map flip ls) = ldims ls.
  Proof. unfold ldims. rewrite map_map. reflexivity. Qed.
  Lemma leg_charge_flip (l : leg G) i : leg_charge (flip l) i = qinv (leg_charge l i).
  Proof. unfold leg_charge, flip. cbn. destruct (snd l); cbn; [|reflexivity]. rewrite qinv_inv. reflexivity. Qed.
  Lemma charge_of_app l1 l2 a b : length a = length l1 ->
    charge_of (l1 ++ l2) (a ++ b) = qop (charge_of l1 a) (charge_of l2 b).
  Proof.
    revert a. induction l1 as [|l r IH]; intros [|i a] E; cbn in *; try discriminate; [rewrite qidl; reflexivity|].
    rewrite IH by congruence. apply qassoc.
  Qed.
  Lemma charge_of_flip ls ix : charge_of (map flip ls) ix = qinv (charge_of ls ix).
  Proof.
    revert ix. induction ls as [|l r IH]; intros [|i ix]; cbn; try (symmetry; apply qinv_id).
    rewrite IH, leg_charge_flip, qinv_op. reflexivity.
  Qed.
  Lemma charge_of_gsum ls ix : length ix = length ls ->
    charge_of ls ix = gsum (map (fun k => leg_charge (nth k ls ([], false)) (nth k ix 0)) (seq 0 (length ls))).
  Proof.
    revert ix. induction ls as [|l r IH]; intros [|i ix] E; cbn in E; try discriminate; [reflexivity|].
    cbn [charge_of length seq map]. rewrite IH by congruence. unfold gsum. cbn [fold_right nth]. f_equal.
    rewrite <- seq_shift, map_map. reflexivity.
  Qed.
  Lemma charge_of_unperm ls p ix : is_perm (length ls) p -> length ix = length ls ->
    charge_of ls (unperm 0 p ix) = charge_of (gather ([], false) ls p) ix.
  Proof.
    intros Hp E. assert (length p = length ls) as Lp by (apply is_perm_length, Hp).
    rewrite !charge_of_gsum by (rewrite ?unperm_length, ?gather_length; congruence).
    rewrite gather_length.
    set (f := fun k => leg_charge (nth k ls ([], false)) (nth (nindex k p) ix 0)).
    transitivity (gsum (map f (seq 0 (length ls)))).
    { f_equal. apply map_ext_in. intros k Hk. apply in_seq in Hk. unfold f. rewrite nth_unperm by lia. reflexivity. }
    transitivity (gsum (map f p)).
    { apply gsum_perm, Permutation_map, Permutation_sym, Hp. }
    f_equal. rewrite (@map_seq_nth _ _ f p 0). apply map_ext_in. intros k Hk. apply in_seq in Hk.
    unfold f. rewrite nth_gather by lia. rewrite index_of_nth by (try apply (is_perm_NoDup Hp); lia). reflexivity.
  Qed.

  Lemma In_sector ls q ix : In ix (sector ls q) <-> valid ix (ldims ls) /\ charge_of ls ix = q.
  Proof. unfold sector. rewrite filter_In, In_idxs. destruct (qdec _ q); split; intros [? ?]; split; auto; discriminate. Qed.
  Lemma NoDup_sector ls q : NoDup (sector ls q).
  Proof. apply NoDup_filter, NoDup_idxs. Qed.
  Lemma sector_flip ls q : sector (map flip ls) q = sector ls (qinv q).
  Proof.
    unfold sector. rewrite ldims_flip. apply filter_ext. intros ix. rewrite charge_of_flip.
    destruct (qdec (qinv _) q) as [E|N], (qdec (charge_of ls ix) (qinv q)) as [E'|N']; auto.
    - exfalso. apply N'. rewrite <- E, qinv_inv. reflexivity.
    - exfalso. apply N. rewrite E', qinv_inv. reflexivity.
  Qed.
  Lemma allowed_app l1 l2 :
    allowed (l1 ++ l2) = flat_map (fun r => map (fun c => r ++ c) (sector l2 (qinv (charge_of l1 r)))) (idxs (ldims l1)).
  Proof.
    unfold allowed, sector. rewrite ldims_app, idxs_app, filter_flat_map. apply flat_map_ext_in.
    intros r Hr. apply In_idxs, valid_length in Hr. rewrite ldims_length in Hr.
    rewrite filter_map_comm. f_equal. apply filter_ext. intros c. rewrite charge_of_app by exact Hr.
    destruct (qdec (qop _ _) qid) as [E|N], (qdec (charge_of l2 c) _) as [E'|N']; auto.
    - exfalso. apply N'. rewrite qcomm in E. apply qop_eq_id in E. exact E.
    - exfalso. apply N. rewrite E'. apply qinvr.
  Qed.

  (** ** fusing *)
  Definition charges_of ls : list G := map (charge_of ls) (idxs (ldims ls)).
  Lemma charges_of_app l1 l2 : charges_of (l1 ++ l2) = fuse2 (charges_of l1) (charges_of l2).
  Proof.
    unfold charges_of, fuse2. rewrite ldims_app, idxs_app, map_flat_map, flat_map_map.
    apply flat_map_ext_in. intros a Ha. apply In_idxs, valid_length in Ha. rewrite ldims_length in Ha.
    rewrite !map_map. apply map_ext. intros b. apply charge_of_app, Ha.
  Qed.
  Lemma charges_of_single c f : bc_ok c -> charges_of [(rep c, f)] = rep (dual c f).
  Proof.
    intros Hc. unfold charges_of. cbn [ldims map fst]. rewrite idxs_single, map_map. rewrite rep_dual by exact Hc.
    cbn [charge_of]. unfold leg_charge. cbn [fst snd].
    transitivity (map (fun i => if f then qinv (nth i (rep c) qid) else nth i (rep c) qid) (seq 0 (length (rep c)))).
    { apply map_ext. intros i. apply qidr. }
    destruct f.
    - rewrite (@map_seq_nth _ _ qinv (rep c) qid). reflexivity.
    - exact (gather_seq qid (rep c)).
  Qed.
  Lemma legs_cons c cs f fs : legs (c :: cs) (f :: fs) = (rep c, f) :: legs cs fs.
  Proof. reflexivity. Qed.
  Lemma legs_length cs fs : length cs = length fs -> length (legs cs fs) = length cs.
  Proof. intros E. unfold legs. rewrite combine_length, map_length. lia. Qed.
  Lemma ldims_legs cs fs : length cs = length fs -> ldims (legs cs fs) = map (fun c => bdim c) cs.
  Proof.
    revert fs. induction cs as [|c r IH]; intros [|f fs] E; cbn in *; try discriminate; [reflexivity|].
    rewrite <- bdim_rep. f_equal. apply IH. congruence.
  Qed.
  Lemma legs_app cs1 cs2 fs1 fs2 : length cs1 = length fs1 -> legs (cs1 ++ cs2) (fs1 ++ fs2) = legs cs1 fs1 ++ legs cs2 fs2.
  Proof.
    revert fs1. induction cs1 as [|c r IH]; intros [|f fs1] E; cbn in *; try discriminate; [reflexivity|].
    f_equal. apply IH. congruence.
  Qed.
  Lemma legs_firstn p cs fs : legs (firstn p cs) (firstn p fs) = firstn p (legs cs fs).
  Proof. unfold legs. rewrite combine_firstn, firstn_map. reflexivity. Qed.
  Lemma legs_skipn p cs fs : legs (skipn p cs) (skipn p fs) = skipn p (legs cs fs).
  Proof.
    revert cs fs. induction p as [|p IH]; intros [|c cs] [|f fs]; cbn; try reflexivity.
    - unfold legs. rewrite combine_nil. reflexivity.
    - apply IH.
  Qed.
  Lemma legs_negb cs fs : legs cs (map negb fs) = map flip (legs cs fs).
  Proof. revert fs. induction cs as [|c r IH]; intros [|f fs]; cbn; try reflexivity. f_equal. apply IH. Qed.
  Lemma legs_gather cs fs p : length cs = length fs -> (forall i, In i p -> i < length cs) ->
    legs (gather (Raw []) cs p) (gather false fs p) = gather ([], false) (legs cs fs) p.
  Proof.
    intros E H. unfold legs. induction p as [|i r IH]; [reflexivity|]. cbn [gather map combine]. f_equal.
    - rewrite combine_nth by (rewrite map_length; exact E). f_equal.
      rewrite (@nth_map_lt _ _ _ _ _ _ (Raw [])) by (apply H; left; reflexivity). reflexivity.
    - apply IH. intros j Hj. apply H. right. exact Hj.
  Qed.

  Definition all_ok cs : Prop := forall c, In c cs -> bc_ok c.
  Lemma all_ok_firstn p cs : all_ok cs -> all_ok (firstn p cs).
  Proof. intros H c Hc. apply H. rewrite <- (firstn_skipn p cs). apply in_or_app. left. exact Hc. Qed.
  Lemma all_ok_skipn p cs : all_ok cs -> all_ok (skipn p cs).
  Proof. intros H c Hc. apply H. rewrite <- (firstn_skipn p cs). apply in_or_app. right. exact Hc. Qed.
  Lemma all_ok_app cs1 cs2 : all_ok cs1 -> all_ok cs2 -> all_ok (cs1 ++ cs2).
  Proof. intros H1 H2 c Hc. apply in_app_or in Hc. destruct Hc; auto. Qed.
  Lemma all_ok_gather cs p : all_ok cs -> all_ok (gather (Raw []) cs p).
  Proof.
    intros H c Hc. apply In_gather in Hc. destruct Hc as (i & _ & ->).
    destruct (Nat.lt_ge_cases i (length cs)) as [L|L]; [apply H, nth_In, L|]. rewrite nth_overflow by exact L. exact I.
  Qed.

  Lemma fuse_charges_spec cs fs : all_ok cs -> length cs = length fs -> cs <> [] ->
    exists c, fuse_charges cs fs = Ok c /\ bc_ok c /\ rep c = charges_of (legs cs fs) /\
      (match cs, fs with
       | [c0], [f] => c = dual c0 f
       | _, _ => c = Raw (rep c)
       end).
  Proof.
    intros Hok E Hne. unfold fuse_charges. rewrite E, Nat.eqb_refl.
    destruct cs as [|c cs]; [congruence|]. destruct fs as [|f fs]; [discriminate|].
    eexists. split; [reflexivity|].
    assert (forall cs fs acc l1, all_ok cs -> length cs = length fs -> bc_ok acc -> rep acc = charges_of l1 ->
      let r := fold_left (fun acc cf => badd acc (dual (fst cf) (snd cf))) (combine cs fs) acc in
      bc_ok r /\ rep r = charges_of (l1 ++ legs cs fs) /\ (r = acc \/ r = Raw (rep r)) /\
      (cs <> [] -> r = Raw (rep r)) /\ (cs = [] -> r = acc)) as Hf.
    { clear. intros cs. induction cs as [|c cs IH]; intros [|f fs] acc l1 Hok E Ha Hr; cbn in E; try discriminate.
      - cbn. rewrite app_nil_r. repeat (split; try assumption); auto. congruence.
      - cbn [combine fold_left fst snd]. cbv zeta.
        destruct (IH fs (badd acc (dual c f)) (l1 ++ [(rep c, f)])) as (H1 & H2 & H3 & H4 & H5).
        + intros x Hx. apply Hok. right. exact Hx.
        + congruence.
        + exact I.
        + rewrite rep_badd, charges_of_app, Hr, charges_of_single by (apply Hok; left; reflexivity). reflexivity.
        + rewrite <- app_assoc in H2. cbn [app] in H2.
          assert (fold_left (fun acc cf => badd acc (dual (fst cf) (snd cf))) (combine cs fs) (badd acc (dual c f)) =
            Raw (rep (fold_left (fun acc cf => badd acc (dual (fst cf) (snd cf))) (combine cs fs) (badd acc (dual c f))))) as Hraw.
          { destruct H3 as [H3|H3]; [|exact H3]. rewrite H3 at 1 2. reflexivity. }
          split; [exact H1|]. split; [exact H2|]. split; [right; exact Hraw|]. split; [intros _; exact Hraw | discriminate]. }
    destruct (Hf cs fs (dual c f) [(rep c, f)]) as (H1 & H2 & H3 & H4 & H5).
    - intros x Hx. apply Hok. right. exact Hx.
    - cbn in E. congruence.
    - apply dual_ok, Hok. left. reflexivity.
    - symmetry. apply charges_of_single, Hok. left. reflexivity.
    - split; [exact H1|]. split; [exact H2|].
      destruct cs as [|c2 cs]; destruct fs as [|f2 fs]; cbn in E; try discriminate.
      + apply H5. reflexivity.
      + apply H4. discriminate.
  Qed.
  Lemma fuse_charges_flows cs fs : (forall c, In c cs -> bc_ok c) -> length cs = length fs -> cs <> [] ->
    exists c c', fuse_charges cs fs = Ok c /\ fuse_charges cs (map negb fs) = Ok c' /\ bc_ok c /\
      rep c = map (charge_of (legs cs fs)) (idxs (map (fun c => length (rep c)) cs)) /\
      rep c' = map qinv (rep c).
  Proof.
    intros Hok E Hne. destruct (fuse_charges_spec Hok E Hne) as (c & H1 & H2 & H3 & _).
    destruct (@fuse_charges_spec cs (map negb fs)) as (c' & H1' & H2' & H3' & _); [exact Hok | rewrite map_length; exact E | exact Hne |].
    exists c, c'. repeat (split; [assumption|]). split.
    - rewrite H3. unfold charges_of. rewrite ldims_legs by exact E. do 2 f_equal. apply map_ext. intros. apply bdim_rep.
    - rewrite H3', H3, legs_negb. unfold charges_of. rewrite ldims_flip, map_map. apply map_ext. intros. apply charge_of_flip.
  Qed.
  Lemma charges_of_length ls : length (charges_of ls) = nprod (ldims ls).
  Proof. unfold charges_of. rewrite map_length. apply length_idxs. Qed.
End Facts.
