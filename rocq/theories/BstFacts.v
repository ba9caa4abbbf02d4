(** * BstFacts: dense form of block-sparse tensors, conversion and transposition *)
From Coq Require Import Permutation.
From Verif Require Import Prelude Algebra Tensor TensorFacts Res Charge ChargeFacts BlockSparse BlockSpec BstSpec ListFacts BlockFacts BlockDegen BlockReduce BlockMaps BlockTr.
Set Implicit Arguments.
Unset Strict Implicit.

(** ** Grouped indices *)
Lemma nprod_concat gs : nprod (concat gs) = nprod (map nprod gs).
Proof. induction gs as [|g r IH]; [reflexivity|]. cbn [concat map]. rewrite nprod_app, IH. reflexivity. Qed.
Lemma unravel_len s k : length (unravel s k) = length s.
Proof. revert k. induction s as [|d r IH]; intros k; cbn; [reflexivity|]. rewrite IH. reflexivity. Qed.
Lemma valid_cons_inv i ix d s : valid (i :: ix) (d :: s) -> i < d /\ valid ix s.
Proof. intros H. inversion H; subst. auto. Qed.
Lemma split_index_valid gs I : valid I (map nprod gs) -> valid (split_index gs I) (concat gs).
Proof.
  revert I. induction gs as [|g r IH]; intros [|i I] H; try (inversion H; fail); [constructor|].
  cbn [map] in H. apply valid_cons_inv in H. destruct H as [H1 H2]. cbn [split_index concat]. apply valid_app; [apply unravel_valid, H1 | apply IH, H2].
Qed.
Lemma split_index_ravel gs I : valid I (map nprod gs) -> ravel (concat gs) (split_index gs I) = ravel (map nprod gs) I.
Proof.
  revert I. induction gs as [|g r IH]; intros [|i I] H; try (inversion H; fail); [reflexivity|].
  cbn [map] in H. apply valid_cons_inv in H. destruct H as [H1 H2]. cbn [split_index concat map ravel].
  rewrite ravel_app by apply unravel_len. rewrite ravel_unravel by exact H1. rewrite IH by exact H2. rewrite nprod_concat. reflexivity.
Qed.
Lemma unravel_split_index gs I : valid I (map nprod gs) -> unravel (concat gs) (ravel (map nprod gs) I) = split_index gs I.
Proof. intros H. rewrite <- split_index_ravel by exact H. apply unravel_ravel, split_index_valid, H. Qed.
Lemma split_index_app g1 g2 I1 I2 : length I1 = length g1 -> split_index (g1 ++ g2) (I1 ++ I2) = split_index g1 I1 ++ split_index g2 I2.
Proof.
  revert I1. induction g1 as [|g r IH]; intros [|i I1] H; try discriminate; [reflexivity|].
  cbn [app split_index]. rewrite IH by (cbn in H; lia). apply app_assoc.
Qed.
Lemma map_split_idxs gs : map (split_index gs) (idxs (map nprod gs)) = idxs (concat gs).
Proof.
  rewrite (idxs_unravel (concat gs)), nprod_concat, <- (idxs_ravel (map nprod gs)), map_map. apply map_ext_in. intros I HI.
  apply In_idxs in HI. symmetry. apply unravel_split_index, HI.
Qed.
Lemma split_index_inj gs I J : valid I (map nprod gs) -> valid J (map nprod gs) -> split_index gs I = split_index gs J -> I = J.
Proof. intros HI HJ E. apply (@ravel_inj (map nprod gs)); [exact HI | exact HJ|]. rewrite <- !split_index_ravel by assumption. congruence. Qed.
Lemma split_index_nth bord gs I g j : NoDup (concat bord) -> map (@length nat) gs = map (@length nat) bord -> length I = length gs ->
  g < length bord -> j < length (nth g bord []) ->
  nth (nindex (nth j (nth g bord []) 0) (concat bord)) (split_index gs I) 0 = nth j (unravel (nth g gs []) (nth g I 0)) 0.
Proof.
  revert gs I g. induction bord as [|o r IH]; intros gs I g Hnd Hl HI Hg Hj; [cbn in Hg; lia|].
  destruct gs as [|g0 gs]; [discriminate|]. destruct I as [|i I]; [discriminate|]. cbn in Hl. injection Hl as Hl0 Hl.
  cbn [concat split_index] in *. apply NoDup_app_iff in Hnd. destruct Hnd as (Hn1 & Hn2 & Hd). destruct g as [|g].
  - cbn [nth] in *. assert (In (nth j o 0) o) as Hi by (apply nth_In, Hj). rewrite index_of_app_l by exact Hi.
    rewrite index_of_nth by assumption. apply app_nth1. rewrite unravel_len. lia.
  - cbn [nth] in *. assert (In (nth j (nth g r []) 0) (concat r)) as Hi.
    { apply in_concat. exists (nth g r []). split; [apply nth_In; cbn in Hg; lia | apply nth_In, Hj]. }
    rewrite index_of_app_r by (intros Ho; apply (Hd _ Ho), Hi).
    rewrite app_nth2 by (rewrite unravel_len; lia). rewrite unravel_len, Hl0.
    replace (length o + nindex (nth j (nth g r []) 0) (concat r) - length o) with (nindex (nth j (nth g r []) 0) (concat r)) by lia.
    apply IH; try assumption; cbn in *; lia.
Qed.
Lemma In_concat_nth A (l : list (list A)) x d : In x (concat l) -> exists g j, g < length l /\ j < length (nth g l []) /\ nth j (nth g l []) d = x.
Proof.
  intros H. apply in_concat in H. destruct H as (o & Ho & Hx). apply (In_nth _ _ []) in Ho. destruct Ho as (g & Hg & Eg).
  subst o. apply (In_nth _ _ d) in Hx. destruct Hx as (j & Hj & Ej). exists g, j. auto.
Qed.
Lemma split_index_length gs I : length I = length gs -> length (split_index gs I) = length (concat gs).
Proof.
  revert I. induction gs as [|g r IH]; intros [|i I] H; try discriminate; [reflexivity|]. cbn [split_index concat].
  rewrite !app_length, unravel_len, IH by (cbn in H; lia). reflexivity.
Qed.
Lemma gather_concat A (d : A) l os : gather d l (concat os) = concat (map (gather d l) os).
Proof. unfold gather. rewrite concat_map. f_equal. Qed.
Lemma concat_gather_perm A (l : list (list A)) p : is_perm (length l) p -> Permutation (concat (gather [] l p)) (concat l).
Proof.
  intros Hp. rewrite <- (gather_seq [] l) at 2. unfold gather.
  assert (forall a b, Permutation a b -> Permutation (concat (map (fun i => nth i l []) a)) (concat (map (fun i => nth i l []) b))) as H.
  { clear. induction 1; cbn; auto.
    - apply Permutation_app_head. assumption.
    - rewrite !app_assoc. apply Permutation_app_tail. apply Permutation_app_comm.
    - etransitivity; eassumption. }
  apply H, Hp.
Qed.

(** repeated [scatter] of parts of one list *)
Lemma scatter_parts A (D : list A) (d : A) x n : forall (pss : list (list nat)) acc, length acc = n ->
  (forall ps p, In ps pss -> In p ps -> p < n) -> (forall ps, In ps pss -> NoDup ps) ->
  nth x (fold_left (fun a ps => scatter a ps (gather d D ps)) pss acc) d =
  if in_dec Nat.eq_dec x (concat pss) then nth x D d else nth x acc d.
Proof.
  induction pss as [|ps r IH]; intros acc Ha Hlt Hnd; [reflexivity|]. cbn [fold_left concat].
  rewrite IH; [|rewrite scatter_length; exact Ha | intros; eapply Hlt; [right; eassumption | assumption] | intros; apply Hnd; right; assumption].
  assert (forall p, In p ps -> p < length acc) as Hb by (intros p Hp; rewrite Ha; apply (Hlt ps); [left; reflexivity | exact Hp]).
  destruct (in_dec Nat.eq_dec x (concat r)) as [H1|H1].
  - destruct (in_dec Nat.eq_dec x (ps ++ concat r)) as [|N]; [reflexivity|]. exfalso. apply N, in_or_app. auto.
  - destruct (in_dec Nat.eq_dec x ps) as [H2|H2].
    + destruct (in_dec Nat.eq_dec x (ps ++ concat r)) as [_|N]; [|exfalso; apply N, in_or_app; auto].
      rewrite scatter_in; [|apply Hnd; left; reflexivity | rewrite gather_length; reflexivity | exact Hb | exact H2].
      rewrite nth_gather by (apply index_of_lt, H2). rewrite nth_index_of by exact H2. reflexivity.
    + destruct (in_dec Nat.eq_dec x (ps ++ concat r)) as [N|_]; [apply in_app_or in N; tauto|].
      apply scatter_notin; assumption.
Qed.
Lemma fold_scatter_length A (d : A) D (pss : list (list nat)) acc : length (fold_left (fun a ps => scatter a ps (gather d D ps)) pss acc) = length acc.
Proof. revert acc. induction pss as [|ps r IH]; intros acc; [reflexivity|]. cbn. rewrite IH. apply scatter_length. Qed.

Section Bst.
  Context {G : chg} {K : csr}.
  Notation bst := (bst G K).
  Implicit Types (t : bst) (ls : list (leg G)).

  Lemma pos_lt ls ix : In ix (allowed ls) -> pos ls ix < length (allowed ls).
  Proof. apply index_of_lt. Qed.
  Lemma pos_inj ls ix jx : In ix (allowed ls) -> In jx (allowed ls) -> pos ls ix = pos ls jx -> ix = jx.
  Proof.
    intros Hi Hj E. rewrite <- (@nth_index_of _ ixdec ix (allowed ls) [] Hi). unfold pos in E. rewrite E. apply nth_index_of, Hj.
  Qed.
  Lemma nth_allowed ls (f : list nat -> K) ix : In ix (allowed ls) -> nth (pos ls ix) (map f (allowed ls)) r0 = f ix.
  Proof.
    intros Hi. rewrite (@nth_map_lt _ _ _ _ _ _ []) by (apply pos_lt, Hi). f_equal. apply nth_index_of, Hi.
  Qed.
  Lemma entry_allowed ls (data : list K) ix : In ix (allowed ls) -> entry ls data ix = nth (pos ls ix) data r0.
  Proof. intros Hi. apply In_sector in Hi. destruct Hi as [_ Hc]. unfold entry. rewrite Hc. destruct (qdec qid qid); congruence. Qed.
  Lemma entry_zero ls (data : list K) ix : charge_of ls ix <> qid -> entry ls data ix = r0.
  Proof. intros N. unfold entry. destruct (qdec (charge_of ls ix) qid); congruence. Qed.
  (** stored data are determined by the entries *)
  Lemma data_ext ls (d1 d2 : list K) : length d1 = length (allowed ls) -> length d2 = length (allowed ls) ->
    (forall ix, In ix (allowed ls) -> entry ls d1 ix = entry ls d2 ix) -> d1 = d2.
  Proof.
    intros H1 H2 H. apply (@list_ext _ _ _ r0); [congruence|]. intros i Hi.
    assert (In (nth i (allowed ls) []) (allowed ls)) as Hin by (apply nth_In; lia).
    specialize (H _ Hin). rewrite !entry_allowed in H by exact Hin. unfold pos in H.
    rewrite index_of_nth in H; [exact H | apply NoDup_sector | lia].
  Qed.

  Section Wf.
    Variable t : bst.
    Hypothesis Hwf : wf_bst t.
    Let n := length (bcs t).
    Let ls := elegs t.
    Lemma wf_len : length (bcs t) = length (bfs t). Proof. apply Hwf. Qed.
    Lemma wf_ok : all_ok (bcs t). Proof. unfold all_ok. apply Hwf. Qed.
    Lemma wf_data : length (bdata t) = length (allowed ls). Proof. apply Hwf. Qed.
    Lemma wf_perm : is_perm n (concat (bord t)). Proof. apply Hwf. Qed.
    Lemma wf_legs_length : length ls = n. Proof. apply legs_length, wf_len. Qed.
    Lemma wf_dims : ldims ls = edims t. Proof. apply ldims_legs, wf_len. Qed.
    Lemma wf_dims_length : length (ldims ls) = n. Proof. rewrite ldims_length. apply wf_legs_length. Qed.
    Lemma wf_nil : bord t = [] <-> bcs t = [].
    Proof.
      pose proof (is_perm_length wf_perm) as L. split; intros E.
      - rewrite E in L. cbn in L. unfold n in L. destruct (bcs t); [reflexivity | discriminate].
      - unfold n in L. rewrite E in L. destruct (bord t) as [|o r] eqn:Eo; [reflexivity|]. exfalso.
        assert (o <> []) as Ho by (apply Hwf; rewrite Eo; left; reflexivity). destruct o; [congruence|]. cbn in L. discriminate.
    Qed.
    Lemma wf_shape : bshape t = shape (dense_of t).
    Proof. unfold bshape, dense_of. cbn [shape]. fold ls. rewrite wf_dims, map_map. reflexivity. Qed.
    Lemma wf_concat : concat (map (fun o => gather 0 (ldims ls) o) (bord t)) = gather 0 (ldims ls) (concat (bord t)).
    Proof. rewrite gather_concat. reflexivity. Qed.
    Lemma wf_nprod : nprod (bshape t) = nprod (ldims ls).
    Proof.
      rewrite wf_shape. unfold dense_of. cbn [shape]. fold ls. rewrite <- nprod_concat, wf_concat. apply nprod_perm.
      rewrite <- (gather_seq 0 (ldims ls)) at 2. apply Permutation_map. rewrite wf_dims_length. apply wf_perm.
    Qed.
    Lemma wf_split_valid I : valid I (bshape t) ->
      valid (unperm 0 (concat (bord t)) (split_index (map (fun o => gather 0 (ldims ls) o) (bord t)) I)) (ldims ls).
    Proof.
      intros HI. apply valid_unperm; [rewrite wf_dims_length; apply wf_perm|]. rewrite <- wf_concat. apply split_index_valid.
      rewrite wf_shape in HI. exact HI.
    Qed.

    Lemma todense_spec : bord t <> [] -> exists d, todense t = Ok d /\ teq d (dense_of t).
    Proof.
      intros Hne. unfold todense.
      assert (ndim t <> 0) as Hnd by (unfold ndim; destruct (bord t); [congruence | cbn; lia]).
      apply Nat.eqb_neq in Hnd. rewrite Hnd.
      assert (bcs t <> []) as Hc by (rewrite <- wf_nil; exact Hne).
      destruct (fuse_charges_spec wf_ok wf_len Hc) as (c & Ec & _ & Er & _). rewrite Ec. cbn [rbind]. cbv zeta. rewrite Er. fold (elegs t). fold ls.
      assert (flatnonzero (map (is_q qid) (charges_of ls)) = map (ravel (ldims ls)) (allowed ls)) as Eps.
      { unfold charges_of. rewrite map_map. apply flatnonzero_idxs. }
      rewrite Eps, map_length, <- wf_data, Nat.eqb_refl. eexists. split; [reflexivity|]. split; [apply wf_shape|].
      intros I HI. cbn [reshape transpose of_list elt shape] in *. rewrite wf_nprod, <- wf_dims.
      unfold flat_order. set (gs := map (fun o => gather 0 (ldims ls) o) (bord t)).
      assert (valid I (map nprod gs)) as HI' by (rewrite wf_shape in HI; exact HI).
      assert (gather 0 (ldims ls) (concat (bord t)) = concat gs) as -> by (symmetry; apply wf_concat).
      assert (bshape t = map nprod gs) as -> by apply wf_shape.
      rewrite unravel_split_index by exact HI'. unfold dense_of. cbn [elt]. fold ls. fold gs.
      set (ix := unperm 0 (concat (bord t)) (split_index gs I)).
      assert (valid ix (ldims ls)) as Hix by (apply wf_split_valid, HI).
      assert (forall p, In p (map (ravel (ldims ls)) (allowed ls)) -> p < length (repeat (@r0 K) (nprod (ldims ls)))) as Hb.
      { intros p Hp. apply in_map_iff in Hp. destruct Hp as (jx & <- & Hj). apply In_sector in Hj. rewrite repeat_length. apply ravel_lt, Hj. }
      destruct (qdec (charge_of ls ix) qid) as [E|N].
      - assert (In ix (allowed ls)) as Ha by (apply In_sector; auto).
        rewrite entry_allowed by exact Ha.
        assert (NoDup (map (ravel (ldims ls)) (allowed ls))) as Hnodup.
        { apply NoDup_map_in; [|apply NoDup_sector]. intros a b Hxa Hxb. apply In_sector in Hxa, Hxb. apply ravel_inj; [apply Hxa | apply Hxb]. }
        rewrite scatter_in; [|exact Hnodup | rewrite map_length; symmetry; apply wf_data | exact Hb | apply in_map, Ha].
        f_equal. apply (@index_of_map_inj _ _ ixdec Nat.eq_dec (ravel (ldims ls))).
        intros jx Hj. apply In_sector in Hj. apply ravel_inj; [apply Hj | exact Hix].
      - rewrite entry_zero by exact N. rewrite scatter_notin; [apply nth_repeat | exact Hb|].
        intros Hi. apply in_map_iff in Hi. destruct Hi as (jx & E & Hj). apply In_sector in Hj. destruct Hj as [Hj Ej].
        apply ravel_inj in E; [congruence | exact Hj | exact Hix].
    Qed.

    (** ** Transposition *)
    Lemma dense_ext I J (t2 : bst) :
      entry ls (bdata t) (unperm 0 (concat (bord t)) (split_index (map (fun o => gather 0 (ldims ls) o) (bord t)) I)) =
      entry (elegs t2) (bdata t2) (unperm 0 (concat (bord t2)) (split_index (map (fun o => gather 0 (ldims (elegs t2)) o) (bord t2)) J)) ->
      elt (dense_of t) I = elt (dense_of t2) J.
    Proof. intros H. exact H. Qed.
  End Wf.

  Lemma split_unperm_gather (bord gs : list (list nat)) order J n : is_perm (length bord) order -> is_perm n (concat bord) ->
    map (@length nat) gs = map (@length nat) bord -> length J = length bord ->
    unperm 0 (concat (gather [] bord order)) (split_index (gather [] gs order) J) =
    unperm 0 (concat bord) (split_index gs (unperm 0 order J)).
  Proof.
    intros Ho Hp Hl HJ. pose proof (is_perm_length Hp) as Lp. pose proof (is_perm_length Ho) as Lo.
    pose proof (concat_gather_perm Ho) as Hperm. pose proof (Permutation_length Hperm) as Lq.
    apply (@list_ext _ _ _ 0); [rewrite !unperm_length; exact Lq|]. rewrite unperm_length. intros i Hi.
    rewrite !nth_unperm by lia.
    assert (In i (concat bord)) as Hin by (apply (@is_perm_In _ _ i Hp); lia).
    destruct (@In_concat_nth _ bord i 0 Hin) as (g & j & Hg & Hj & <-).
    rewrite (@split_index_nth bord gs); [|eapply is_perm_NoDup, Hp | exact Hl | rewrite unperm_length, Lo; apply (f_equal (@length nat)) in Hl; rewrite !map_length in Hl; congruence | exact Hg | exact Hj].
    rewrite nth_unperm by lia. set (g' := nindex g order).
    assert (In g order) as Hgo by (apply (@is_perm_In _ _ g Ho); exact Hg).
    assert (g' < length order) as Hg' by (apply index_of_lt, Hgo).
    assert (nth g' order 0 = g) as Eg by (apply nth_index_of, Hgo).
    assert (nth g' (gather [] bord order) [] = nth g bord []) as E1 by (rewrite nth_gather, Eg by exact Hg'; reflexivity).
    assert (nth g' (gather [] gs order) [] = nth g gs []) as E2 by (rewrite nth_gather, Eg by exact Hg'; reflexivity).
    rewrite <- E1. rewrite (@split_index_nth (gather [] bord order) (gather [] gs order) J g' j).
    - rewrite E2. reflexivity.
    - apply (Permutation_NoDup (Permutation_sym Hperm)). eapply is_perm_NoDup, Hp.
    - assert (forall l : list (list nat), length l = length bord -> map (@length nat) (gather [] l order) = gather 0 (map (@length nat) l) order) as Hm.
      { intros l El. apply map_gather. intros k Hk. rewrite El. apply (@is_perm_In _ _ k Ho), Hk. }
      rewrite !Hm; [rewrite Hl; reflexivity | reflexivity | apply (f_equal (@length nat)) in Hl; rewrite !map_length in Hl; exact Hl].
    - rewrite gather_length. lia.
    - rewrite gather_length. exact Hg'.
    - rewrite E1. exact Hj.
  Qed.

  Lemma btranspose_spec t order : wf_bst t -> is_perm (ndim t) order ->
    exists u, btranspose t order = Ok u /\ wf_bst u /\ bdata u = bdata t /\ bcs u = bcs t /\ bfs u = bfs t /\
      bord u = gather [] (bord t) order /\ teq (dense_of u) (transpose (dense_of t) order).
  Proof.
    intros Hwf Ho. unfold btranspose. rewrite (is_perm_length Ho), Nat.eqb_refl.
    assert (forallb (fun i => i <? ndim t) order = true) as ->.
    { apply forallb_forall. intros i Hi. apply Nat.ltb_lt. apply (@is_perm_In _ _ i Ho), Hi. }
    eexists. split; [reflexivity|]. pose proof (concat_gather_perm Ho) as Hperm.
    split; [|split; [reflexivity|]; split; [reflexivity|]; split; [reflexivity|]; split; [reflexivity|]].
    - destruct Hwf as (W1 & W2 & W3 & W4 & W5). unfold wf_bst. cbn [bdata bcs bfs bord].
      split; [exact W1|]. split; [exact W2|]. split; [exact W3|]. split.
      + unfold is_perm in *. rewrite Hperm. exact W4.
      + intros o Hi. unfold gather in Hi. apply in_map_iff in Hi. destruct Hi as (i & <- & Hi). apply W5, nth_In. apply (@is_perm_In _ _ i Ho), Hi.
    - assert (forall i, In i order -> i < length (bord t)) as Hlt by (intros i Hi; apply (@is_perm_In _ _ i Ho), Hi).
      assert (map (fun o => gather 0 (ldims (elegs t)) o) (gather [] (bord t) order) = gather [] (map (fun o => gather 0 (ldims (elegs t)) o) (bord t)) order) as Eg.
      { apply map_gather, Hlt. }
      split.
      + cbn [dense_of shape transpose bord elegs bcs bfs]. change (elegs (BST (bdata t) (bcs t) (bfs t) (gather [] (bord t) order))) with (elegs t).
        rewrite Eg. apply map_gather. intros i Hi. rewrite map_length. apply Hlt, Hi.
      + intros J HJ. cbn [dense_of shape transpose elt bord bdata] in *.
        change (elegs (BST (bdata t) (bcs t) (bfs t) (gather [] (bord t) order))) with (elegs t) in *. rewrite Eg in *. f_equal.
        apply valid_length in HJ. rewrite map_length, gather_length in HJ.
        apply (@split_unperm_gather _ _ _ _ (length (bcs t))); [exact Ho | apply wf_perm, Hwf | | rewrite HJ; apply is_perm_length, Ho].
        rewrite map_map. apply map_ext. intros o. apply gather_length.
  Qed.
End Bst.
