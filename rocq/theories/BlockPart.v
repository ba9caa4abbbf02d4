(** * BlockPart: the blocks of a matricisation partition the stored entries *)
From Coq Require Import Permutation.
From Verif Require Import Prelude Algebra Tensor TensorFacts Res Charge ChargeFacts BlockSparse BlockSpec ListFacts BlockFacts BlockDegen BlockReduce BlockMaps BlockTr.
Set Implicit Arguments.
Unset Strict Implicit.

Lemma NoDup_flat_map_key A B C (f : A -> list B) (key : B -> C) (g : A -> C) l : NoDup l -> (forall a, In a l -> NoDup (f a)) ->
  (forall a b, In a l -> In b (f a) -> key b = g a) -> (forall a a', In a l -> In a' l -> g a = g a' -> a = a') -> NoDup (flat_map f l).
Proof.
  intros Hl Hf Hk Hg. induction l as [|a l IH]; [constructor|]. inversion Hl as [|? ? Ha Hl']; subst. cbn [flat_map].
  apply NoDup_app_iff. split; [apply Hf; left; reflexivity|]. split.
  - apply IH; [exact Hl' | intros; apply Hf; right; assumption | intros; apply Hk; [right|]; assumption | intros; apply Hg; try right; assumption].
  - intros b Hb Hb'. apply in_flat_map in Hb'. destruct Hb' as (a' & Ha' & Hb'). apply Ha.
    rewrite (Hg a a'); [exact Ha' | left; reflexivity | right; exact Ha'|].
    rewrite <- (Hk a b), <- (Hk a' b); auto; [right; exact Ha' | left; reflexivity].
Qed.

Section Part.
  Context {G : chg}.
  Implicit Types (ls l : list (leg G)) (q : G).

  Definition pairs l1 l2 q : list (list nat) := flat_map (fun r => map (fun c => r ++ c) (sector l2 (qinv q))) (sector l1 q).
  Lemma block_pairs ls order p q :
    block ls order p q = map (fun ix => pos ls (unperm 0 order ix)) (pairs (row_legs ls order p) (col_legs ls order p) q).
  Proof. unfold block, pairs. rewrite map_flat_map. apply flat_map_ext_in. intros r _. rewrite map_map. reflexivity. Qed.
  Lemma In_pairs l1 l2 q ix : In ix (pairs l1 l2 q) <-> In ix (allowed (l1 ++ l2)) /\ charge_of l1 (firstn (length l1) ix) = q.
  Proof.
    unfold pairs. rewrite in_flat_map. split.
    - intros (r & Hr & Hix). apply in_map_iff in Hix. destruct Hix as (c & <- & Hc). split; [apply (@allowed_pairs _ l1 l2 q); assumption|].
      apply In_sector in Hr. destruct Hr as [Hv Hq]. rewrite <- Hq. f_equal. apply valid_length in Hv. rewrite ldims_length in Hv.
      rewrite <- Hv. rewrite firstn_app, Nat.sub_diag, firstn_all. apply app_nil_r.
    - intros [Ha Hq]. apply In_sector in Ha. destruct Ha as [Hv Hc]. rewrite ldims_app in Hv.
      destruct (@valid_app_inv _ _ _ Hv) as [H1 H2]. rewrite ldims_length in H1, H2.
      exists (firstn (length l1) ix). split; [apply In_sector; auto|]. apply in_map_iff. exists (skipn (length l1) ix).
      split; [apply firstn_skipn|]. apply In_sector. split; [exact H2|].
      rewrite <- (firstn_skipn (length l1) ix), charge_of_app, Hq in Hc by (apply valid_length in H1; rewrite ldims_length in H1; exact H1).
      rewrite qcomm in Hc. apply qop_eq_id, Hc.
  Qed.
  Lemma NoDup_pairs l1 l2 q : NoDup (pairs l1 l2 q).
  Proof.
    unfold pairs. apply (@NoDup_flat_map_key _ _ _ _ (firstn (length l1)) (fun r => r)).
    - apply NoDup_sector.
    - intros r _. apply NoDup_map_in; [|apply NoDup_sector]. intros a b _ _ E. apply app_inv_head in E. exact E.
    - intros r ix Hr Hix. apply in_map_iff in Hix. destruct Hix as (c & <- & _). apply In_sector in Hr. destruct Hr as [Hv _].
      apply valid_length in Hv. rewrite ldims_length in Hv. rewrite <- Hv. rewrite firstn_app, Nat.sub_diag, firstn_all. apply app_nil_r.
    - auto.
  Qed.
  Lemma unperm_inj n (order a b : list nat) : is_perm n order -> length a = n -> length b = n -> unperm 0 order a = unperm 0 order b -> a = b.
  Proof.
    intros Hp La Lb E. rewrite <- (@gather_unperm _ 0 0 order a) by (rewrite La; exact Hp).
    rewrite E. apply gather_unperm. rewrite Lb. exact Hp.
  Qed.
  Lemma matricise ls order p ix : is_perm (length ls) order -> p <= length ls ->
    In ix (allowed ls) -> In (gather 0 ix order) (allowed (row_legs ls order p ++ col_legs ls order p)) /\ unperm 0 order (gather 0 ix order) = ix.
  Proof.
    intros Ho Hp Hix. apply In_sector in Hix. destruct Hix as [Hv Hc]. pose proof (valid_length Hv) as Lv. rewrite ldims_length in Lv.
    assert (unperm 0 order (gather 0 ix order) = ix) as Eu by (apply unperm_gather; rewrite Lv; exact Ho). split; [|exact Eu].
    unfold row_legs, col_legs. rewrite firstn_skipn. apply In_sector. split.
    - unfold ldims. rewrite (@map_gather _ _ _ _ _ _ 0) by (intros i Hi; apply (@is_perm_In _ _ i Ho), Hi).
      apply valid_gather; [exact Hv|]. intros i Hi. rewrite map_length. apply (@is_perm_In _ _ i Ho), Hi.
    - rewrite <- charge_of_unperm; [rewrite Eu; exact Hc | exact Ho | rewrite gather_length; apply is_perm_length, Ho].
  Qed.
  Lemma unmatricise ls order p ix : is_perm (length ls) order ->
    In ix (allowed (row_legs ls order p ++ col_legs ls order p)) -> In (unperm 0 order ix) (allowed ls).
  Proof. intros Ho. unfold row_legs, col_legs. rewrite firstn_skipn. apply In_allowed_unperm, Ho. Qed.

  Lemma allowed_perm ls perm : is_perm (length ls) perm ->
    Permutation (map (unperm 0 perm) (allowed (gather ([], false) ls perm))) (allowed ls).
  Proof.
    intros Ho. pose proof (is_perm_length Ho) as Lo. apply NoDup_Permutation.
    - apply NoDup_map_in; [|apply NoDup_sector]. intros a b Ha Hb. apply In_sector in Ha, Hb. destruct Ha as [Ha _], Hb as [Hb _].
      apply valid_length in Ha, Hb. rewrite ldims_length, gather_length in Ha, Hb. apply (@unperm_inj (length ls)); [exact Ho | congruence | congruence].
    - apply NoDup_sector.
    - intros ix. rewrite in_map_iff. split.
      + intros (jx & <- & Hj). apply In_allowed_unperm; assumption.
      + intros Hix. destruct (@matricise ls perm 0 ix Ho (Nat.le_0_l _) Hix) as [Ha Eu]. exists (gather 0 ix perm). split; [exact Eu|].
        unfold row_legs, col_legs in Ha. rewrite firstn_skipn in Ha. exact Ha.
  Qed.
  Lemma allowed_perm_length ls perm : is_perm (length ls) perm -> length (allowed (gather ([], false) ls perm)) = length (allowed ls).
  Proof. intros Ho. rewrite <- (Permutation_length (allowed_perm Ho)). symmetry. apply map_length. Qed.

  Lemma In_block ls order p q k : is_perm (length ls) order -> p <= length ls ->
    (In k (block ls order p q) <-> exists ix, In ix (allowed ls) /\ pos ls ix = k /\ charge_of (row_legs ls order p) (firstn p (gather 0 ix order)) = q).
  Proof.
    intros Ho Hp. pose proof (is_perm_length Ho) as Lo.
    assert (length (row_legs ls order p) = p) as Lr by (unfold row_legs; rewrite firstn_length, gather_length; lia).
    rewrite block_pairs, in_map_iff. split.
    - intros (jx & <- & Hj). apply In_pairs in Hj. destruct Hj as [Hj Hq]. exists (unperm 0 order jx). split; [apply (unmatricise Ho Hj)|]. split; [reflexivity|].
      rewrite Lr in Hq. rewrite gather_unperm; [exact Hq|]. apply In_sector in Hj. destruct Hj as [Hv _]. apply valid_length in Hv.
      rewrite ldims_length in Hv. unfold row_legs, col_legs in Hv. rewrite firstn_skipn, gather_length in Hv. rewrite Hv, Lo. exact Ho.
    - intros (ix & Hix & <- & Hq). destruct (@matricise ls order p ix Ho Hp Hix) as [Ha Eu]. exists (gather 0 ix order).
      rewrite Eu. split; [reflexivity|]. apply In_pairs. rewrite Lr. auto.
  Qed.
  Lemma allowed_mat_length ls order p jx : is_perm (length ls) order ->
    In jx (allowed (row_legs ls order p ++ col_legs ls order p)) -> length jx = length ls.
  Proof.
    intros Ho Hj. apply In_sector in Hj. destruct Hj as [Hv _]. apply valid_length in Hv.
    rewrite ldims_length in Hv. unfold row_legs, col_legs in Hv. rewrite firstn_skipn, gather_length in Hv. rewrite Hv. apply is_perm_length, Ho.
  Qed.
  Lemma NoDup_block ls order p q : is_perm (length ls) order -> NoDup (block ls order p q).
  Proof.
    intros Ho. rewrite block_pairs. apply NoDup_map_in; [|apply NoDup_pairs]. intros a b Ha Hb E. apply In_pairs in Ha, Hb.
    destruct Ha as [Ha _], Hb as [Hb _].
    apply (@unperm_inj (length ls) order); [exact Ho | apply (allowed_mat_length Ho Ha) | apply (allowed_mat_length Ho Hb)|].
    assert (forall ix, In ix (allowed (row_legs ls order p ++ col_legs ls order p)) -> In (unperm 0 order ix) (allowed ls)) as Hin.
    { intros ix Hi. apply (unmatricise Ho Hi). }
    apply Hin in Ha, Hb. unfold pos in E. rewrite <- (@nth_index_of _ ixdec _ (allowed ls) [] Ha), E. apply nth_index_of, Hb.
  Qed.

  (** the block maps contain every position exactly once *)
  Lemma blocks_partition ls order p (B : blocks) : is_perm (length ls) order -> p <= length ls -> blocks_ok ls order p B ->
    Permutation (concat (bmaps B)) (seq 0 (length (allowed ls))).
  Proof.
    intros Ho Hp (B1 & B2 & B3 & B4 & B5 & B6 & B7). pose proof (is_perm_length Ho) as Lo.
    rewrite B4, <- flat_map_concat_map. apply NoDup_Permutation.
    - apply (@NoDup_flat_map_key _ _ _ _ (fun k => charge_of (row_legs ls order p) (firstn p (gather 0 (nth k (allowed ls) []) order))) (fun q => q)).
      + exact B3.
      + intros q _. apply NoDup_block, Ho.
      + intros q k _ Hk. apply In_block in Hk; [|exact Ho | exact Hp]. destruct Hk as (ix & Hix & <- & Hq). unfold pos.
        rewrite nth_index_of by exact Hix. exact Hq.
      + auto.
    - apply seq_NoDup.
    - intros k. rewrite in_flat_map, in_seq. split.
      + intros (q & _ & Hk). apply In_block in Hk; [|exact Ho | exact Hp]. destruct Hk as (ix & Hix & <- & _). split; [lia|]. apply index_of_lt, Hix.
      + intros [_ Hk]. cbn in Hk. set (ix := nth k (allowed ls) []). assert (In ix (allowed ls)) as Hix by (apply nth_In, Hk).
        assert (pos ls ix = k) as Ek by (apply index_of_nth; [apply NoDup_sector | exact Hk]).
        destruct (@matricise ls order p ix Ho Hp Hix) as [Ha Eu].
        set (q := charge_of (row_legs ls order p) (firstn p (gather 0 ix order))). exists q.
        assert (In k (block ls order p q)) as Hb.
        { apply In_block; [exact Ho | exact Hp|]. exists ix. auto. }
        split; [|exact Hb]. rewrite block_pairs in Hb. unfold pairs in Hb. apply in_map_iff in Hb. destruct Hb as (jx & _ & Hj).
        apply in_flat_map in Hj. destruct Hj as (r & Hr & Hj). apply in_map_iff in Hj. destruct Hj as (c & _ & Hc).
        apply B6; intros E0; [rewrite E0 in Hr; exact Hr | rewrite E0 in Hc; exact Hc].
  Qed.
End Part.
