(** * TensorFacts: elementary facts about indices and arrays *)
From Verif Require Import Prelude Algebra Tensor.
Set Implicit Arguments.

Lemma valid_length ix s : valid ix s -> length ix = length s.
Proof. induction 1; simpl; congruence. Qed.

Lemma valid_nth ix s k : valid ix s -> k < length s -> nth k ix 0 < nth k s 0.
Proof.
  intros H. revert k. induction H as [|i d ix s Hi H IH]; simpl; intros k Hk; [lia|].
  destruct k; [exact Hi|]. apply IH. lia.
Qed.

Lemma valid_intro ix s :
  length ix = length s -> (forall k, k < length s -> nth k ix 0 < nth k s 0) -> valid ix s.
Proof.
  revert s. induction ix as [|i ix IH]; intros [|d s] Hl H; simpl in *; try lia; constructor.
  - apply (H 0). lia.
  - apply IH; [lia|]. intros k Hk. apply (H (S k)). lia.
Qed.

Lemma valid_app_inv ix s1 s2 :
  valid ix (s1 ++ s2) -> valid (firstn (length s1) ix) s1 /\ valid (skipn (length s1) ix) s2.
Proof.
  revert ix. induction s1 as [|d s1 IH]; simpl; intros ix H.
  - split; [constructor|exact H].
  - inversion H as [|i ? ix' ? Hi H']; subst. simpl. apply IH in H'. destruct H'. split; [constructor|]; auto.
Qed.

Lemma valid_app i1 i2 s1 s2 : valid i1 s1 -> valid i2 s2 -> valid (i1 ++ i2) (s1 ++ s2).
Proof. apply Forall2_app. Qed.

Lemma valid_gather ix s p :
  valid ix s -> (forall i, In i p -> i < length s) -> valid (gather 0 ix p) (gather 0 s p).
Proof.
  intros H Hp. apply valid_intro.
  - rewrite !gather_length. reflexivity.
  - intros k Hk. rewrite gather_length in Hk. rewrite !nth_gather by lia.
    apply valid_nth; [exact H|]. apply Hp. apply nth_In. lia.
Qed.

Lemma valid_unperm ix s p :
  is_perm (length s) p -> valid ix (gather 0 s p) -> valid (unperm 0 p ix) s.
Proof.
  intros Hp H. pose proof (valid_length H) as Hl. rewrite gather_length in Hl.
  pose proof (is_perm_length Hp) as Hpl.
  apply valid_intro.
  - rewrite unperm_length. exact Hpl.
  - intros k Hk. rewrite nth_unperm by lia.
    assert (In k p) as Hin by (apply (is_perm_In k Hp); exact Hk).
    pose proof (index_of_lt Nat.eq_dec k p Hin) as Hlt.
    assert (nindex k p < length (gather 0 s p)) as Hlt' by (rewrite gather_length; exact Hlt).
    pose proof (valid_nth H Hlt') as Hv.
    rewrite nth_gather in Hv by exact Hlt. rewrite nth_index_of in Hv by exact Hin. exact Hv.
Qed.

(** ** Enumeration *)
Lemma In_idxs s ix : In ix (idxs s) <-> valid ix s.
Proof.
  revert ix. induction s as [|d s IH]; simpl; intros ix.
  - split; [intros [<-|[]]; constructor | intros H; inversion H; left; reflexivity].
  - rewrite in_flat_map. split.
    + intros [i [Hi H]]. apply in_seq in Hi. apply in_map_iff in H. destruct H as [jx [<- Hj]].
      constructor; [lia|]. apply IH. exact Hj.
    + intros H. inversion H as [|i ? jx ? Hi Hj]; subst. exists i. split; [apply in_seq; lia|].
      apply in_map. apply IH. exact Hj.
Qed.

Lemma NoDup_idxs s : NoDup (idxs s).
Proof.
  induction s as [|d s IH]; simpl; [repeat constructor; intros []|].
  assert (forall l, NoDup l -> NoDup (flat_map (fun i => map (cons i) (idxs s)) l)) as H.
  { induction l as [|i l IHl]; simpl; intros HN; [constructor|].
    inversion HN as [|? ? Hi Hl]; subst. apply NoDup_app_iff. repeat split.
    - apply NoDup_map_in; [|exact IH]. intros a b _ _ E. congruence.
    - apply IHl. exact Hl.
    - intros x Hx Hy. apply in_map_iff in Hx. destruct Hx as [u [<- _]].
      apply in_flat_map in Hy. destruct Hy as [j [Hj Hy]]. apply in_map_iff in Hy.
      destruct Hy as [v [E _]]. injection E as -> _. contradiction. }
  apply H. apply seq_NoDup.
Qed.

Lemma length_idxs s : length (idxs s) = nprod s.
Proof.
  induction s as [|d s IH]; simpl; [reflexivity|].
  assert (forall a, length (flat_map (fun i => map (cons i) (idxs s)) (seq a d)) = d * nprod s) as H.
  { induction d as [|d IHd]; simpl; intros a; [reflexivity|].
    rewrite app_length, map_length, IHd, IH. reflexivity. }
  apply H.
Qed.

Lemma ravel_lt s ix : valid ix s -> ravel s ix < nprod s.
Proof.
  intros H. induction H as [|i d ix s Hi H IH]; simpl; [lia|].
  unfold nprod in *. nia.
Qed.

Lemma nprod_pos_valid ix s : valid ix s -> 0 < nprod s.
Proof. intros H. apply ravel_lt in H. lia. Qed.

Lemma unravel_ravel s ix : valid ix s -> unravel s (ravel s ix) = ix.
Proof.
  intros H. induction H as [|i d ix s Hi H IH]; cbn [unravel ravel]; [reflexivity|].
  pose proof (ravel_lt H) as Hlt.
  rewrite Nat.div_add_l by lia. rewrite (Nat.div_small _ _ Hlt), Nat.add_0_r. f_equal.
  rewrite Nat.add_comm, Nat.mod_add by lia. rewrite Nat.mod_small by exact Hlt. exact IH.
Qed.

Lemma unravel_valid s k : k < nprod s -> valid (unravel s k) s.
Proof.
  revert k. induction s as [|d s IH]; cbn [unravel]; intros k Hk; [constructor|].
  assert (nprod (d :: s) = d * nprod s) as E by reflexivity. rewrite E in Hk.
  assert (0 < nprod s) as Hp by nia. constructor.
  - apply Nat.div_lt_upper_bound; lia.
  - apply IH. apply Nat.mod_upper_bound. lia.
Qed.

Lemma ravel_unravel s k : k < nprod s -> ravel s (unravel s k) = k.
Proof.
  revert k. induction s as [|d s IH]; cbn [unravel ravel]; intros k Hk.
  - change (nprod []) with 1 in Hk. lia.
  - assert (nprod (d :: s) = d * nprod s) as E by reflexivity. rewrite E in Hk.
    assert (0 < nprod s) as Hp by nia.
    rewrite IH by (apply Nat.mod_upper_bound; lia).
    rewrite (Nat.mul_comm (k / nprod s)). symmetry. apply Nat.div_mod. lia.
Qed.

Lemma ravel_inj s ix jx : valid ix s -> valid jx s -> ravel s ix = ravel s jx -> ix = jx.
Proof. intros H1 H2 E. rewrite <- (unravel_ravel H1), <- (unravel_ravel H2), E. reflexivity. Qed.

(** the enumeration is [unravel] of 0,1,2,... *)
Lemma idxs_unravel s : idxs s = map (unravel s) (seq 0 (nprod s)).
Proof.
  induction s as [|d s IH]; [reflexivity|].
  cbn [idxs]. change (nprod (d :: s)) with (d * nprod s).
  assert (forall a, flat_map (fun i => map (cons i) (idxs s)) (seq a d)
                    = map (unravel (d :: s)) (seq (a * nprod s) (d * nprod s))) as H.
  { clear - IH. induction d as [|d IHd]; intros a; [reflexivity|].
    cbn [seq flat_map]. rewrite IHd, IH. change (S d * nprod s) with (nprod s + d * nprod s).
    rewrite seq_app, map_app. f_equal.
    - rewrite map_map. rewrite <- (Nat.add_0_r (a * nprod s)).
      assert (forall n b c, b + n <= nprod s -> c = a * nprod s + b ->
        map (fun x => a :: unravel s x) (seq b n) = map (unravel (S d :: s)) (seq c n)) as G.
      { induction n as [|n IHn]; intros b c Hb Hc; [reflexivity|]. cbn [seq map]. f_equal.
        - cbn [unravel]. subst c. rewrite Nat.div_add_l by lia.
          rewrite (Nat.div_small b) by lia. rewrite Nat.add_0_r. f_equal.
          rewrite Nat.add_comm, Nat.mod_add by lia. rewrite Nat.mod_small by lia. reflexivity.
        - apply IHn; lia. }
      apply G; lia.
    - replace (S a * nprod s) with (a * nprod s + nprod s) by lia. reflexivity. }
  exact (H 0).
Qed.

Lemma nth_idxs s ix : valid ix s -> nth (ravel s ix) (idxs s) [] = ix.
Proof.
  intros H. rewrite idxs_unravel. pose proof (ravel_lt H) as Hlt.
  rewrite (nth_indep _ [] (unravel s 0)) by (rewrite map_length, seq_length; exact Hlt).
  rewrite map_nth, seq_nth by exact Hlt. apply unravel_ravel. exact H.
Qed.

Lemma idxs_gather_perm s p :
  is_perm (length s) p -> Permutation (map (fun ix => gather 0 ix p) (idxs s)) (idxs (gather 0 s p)).
Proof.
  intros Hp. apply NoDup_Permutation.
  - apply NoDup_map_in; [|apply NoDup_idxs]. intros a b Ha Hb E.
    apply In_idxs in Ha, Hb. pose proof (valid_length Ha) as La. pose proof (valid_length Hb) as Lb.
    rewrite <- (@unperm_gather _ 0 0 p a), <- (@unperm_gather _ 0 0 p b), E; [reflexivity|rewrite Lb|rewrite La]; exact Hp.
  - apply NoDup_idxs.
  - intros ix. rewrite in_map_iff, In_idxs. split.
    + intros [jx [<- Hj]]. apply In_idxs in Hj. apply valid_gather; [exact Hj|].
      intros i Hi. apply (is_perm_In i Hp). exact Hi.
    + intros H. exists (unperm 0 p ix). split.
      * apply gather_unperm. rewrite (valid_length H), gather_length, (is_perm_length Hp). exact Hp.
      * apply In_idxs. apply valid_unperm; assumption.
Qed.

Section TF.
  Context {R : csr}.
  Notation tensor := (tensor R).
  Add Ring Rring : (rsr R).

  Lemma lsum_idxs_cons d s (f : list nat -> R) :
    lsum (idxs (d :: s)) f = nsum d (fun i => lsum (idxs s) (fun ix => f (i :: ix))).
  Proof.
    cbn [idxs]. rewrite lsum_flat_map. apply lsum_ext. intros i _. apply lsum_map.
  Qed.

  Lemma lsum_idxs_app s1 s2 (f : list nat -> R) :
    lsum (idxs (s1 ++ s2)) f = lsum (idxs s1) (fun i1 => lsum (idxs s2) (fun i2 => f (i1 ++ i2))).
  Proof.
    revert f. induction s1 as [|d s1 IH]; intros f.
    - transitivity (lsum (idxs s2) f +! r0); [cbn [app]; ring | reflexivity].
    - cbn [app]. rewrite !lsum_idxs_cons. apply nsum_ext. intros i _. rewrite IH. reflexivity.
  Qed.

  Lemma lsum_idxs_gather s p (f : list nat -> R) :
    is_perm (length s) p ->
    lsum (idxs (gather 0 s p)) f = lsum (idxs s) (fun ix => f (gather 0 ix p)).
  Proof.
    intros Hp. rewrite <- (lsum_perm _ (idxs_gather_perm s Hp)), lsum_map. reflexivity.
  Qed.

  (** fusing: a sum over one index of size prod(s) is a sum over all multi-indices of s *)
  Lemma nsum_unravel s (f : list nat -> R) : nsum (nprod s) (fun k => f (unravel s k)) = lsum (idxs s) f.
  Proof. rewrite idxs_unravel, lsum_map. reflexivity. Qed.

  Lemma teq_refl (t : tensor) : teq t t.
  Proof. split; auto. Qed.
  Lemma teq_sym (t u : tensor) : teq t u -> teq u t.
  Proof. intros [H1 H2]. split; [congruence|]. intros ix Hv. symmetry. apply H2. congruence. Qed.
  Lemma teq_trans (t u v : tensor) : teq t u -> teq u v -> teq t v.
  Proof.
    intros [H1 H2] [H3 H4]. split; [congruence|]. intros ix Hv. rewrite H2 by exact Hv. apply H4. congruence.
  Qed.

  Lemma teq_to_list (t u : tensor) : teq t u <-> shape t = shape u /\ to_list t = to_list u.
  Proof.
    split; intros [H1 H2]; (split; [exact H1|]).
    - unfold to_list. rewrite <- H1. apply map_ext_in. intros ix Hix. apply H2. apply In_idxs. exact Hix.
    - unfold to_list in H2. rewrite <- H1 in H2. intros ix Hv.
      apply In_idxs in Hv. revert Hv. generalize dependent (idxs (shape t)).
      intros l Hl. induction l as [|x l IH]; [intros []|].
      cbn [map] in Hl. injection Hl as E El. intros [->|H]; [exact E|]. apply IH; assumption.
  Qed.

  Lemma of_to_list (t : tensor) : teq (of_list (shape t) (to_list t)) t.
  Proof.
    split; [reflexivity|]. cbn [of_list shape elt]. intros ix Hv. unfold to_list.
    rewrite (nth_indep _ r0 (elt t [])) by (rewrite map_length, length_idxs; apply ravel_lt; exact Hv).
    rewrite map_nth, nth_idxs by exact Hv. reflexivity.
  Qed.

  (** *** reshape *)
  Lemma reshape_to_list (t : tensor) s : nprod s = nprod (shape t) -> to_list (reshape t s) = to_list t.
  Proof.
    intros E. unfold to_list. cbn [reshape shape elt]. rewrite !idxs_unravel, !map_map, E.
    apply map_ext_in. intros k Hk. apply in_seq in Hk.
    rewrite ravel_unravel by (rewrite E; lia). reflexivity.
  Qed.

  Lemma reshape_reshape (t : tensor) s s' :
    nprod s = nprod (shape t) -> nprod s' = nprod s -> teq (reshape (reshape t s) s') (reshape t s').
  Proof.
    intros E E'. apply teq_to_list. split; [reflexivity|].
    rewrite !reshape_to_list; try reflexivity; try (cbn [reshape shape]); congruence.
  Qed.

  Lemma reshape_id (t : tensor) : teq (reshape t (shape t)) t.
  Proof. apply teq_to_list. split; [reflexivity|]. apply reshape_to_list. reflexivity. Qed.

  Lemma teq_reshape (t u : tensor) s : nprod s = nprod (shape t) -> teq t u -> teq (reshape t s) (reshape u s).
  Proof.
    intros E H. apply teq_to_list. pose proof (proj1 H) as Hs. apply teq_to_list in H. destruct H as [_ H].
    split; [reflexivity|]. rewrite !reshape_to_list; congruence.
  Qed.

  (** *** transpose *)
  Lemma teq_transpose (t u : tensor) p :
    is_perm (rank t) p -> teq t u -> teq (transpose t p) (transpose u p).
  Proof.
    intros Hp [H1 H2]. split; cbn [transpose shape elt]; [congruence|].
    intros ix Hv. apply H2. apply valid_unperm; assumption.
  Qed.

  Lemma transpose_transpose (t : tensor) p q :
    is_perm (rank t) p -> is_perm (rank t) q ->
    teq (transpose (transpose t p) q) (transpose t (gather 0 p q)).
  Proof.
    intros Hp Hq. unfold rank in *. pose proof (is_perm_length Hp) as Lp. pose proof (is_perm_length Hq) as Lq.
    assert (forall j, In j q -> j < length p) as Hb by (intros j Hj; rewrite Lp; apply (is_perm_In j Hq); exact Hj).
    split; cbn [transpose shape elt].
    - apply gather_gather. exact Hb.
    - intros ix Hv. f_equal. pose proof (valid_length Hv) as Lv. rewrite gather_length, Lq in Lv.
      assert (is_perm (length (shape t)) (gather 0 p q)) as Hpq.
      { apply is_perm_intro.
        - rewrite gather_length. exact Lq.
        - apply NoDup_gather; [apply (is_perm_NoDup Hp)|apply (is_perm_NoDup Hq)|exact Hb].
        - intros i Hi. apply In_gather in Hi. destruct Hi as [j [Hj ->]].
          apply (is_perm_In _ Hp). apply nth_In. apply Hb. exact Hj. }
      (* both sides are determined by their gather along p[q] *)
      assert (is_perm (length ix) q) as Hq' by (rewrite Lv; exact Hq).
      set (u := unperm 0 q ix). assert (length u = length (shape t)) as Lu by (unfold u; rewrite unperm_length; exact Lq).
      set (w := unperm 0 p u).
      assert (length w = length (shape t)) as Lw by (unfold w; rewrite unperm_length; exact Lp).
      rewrite <- (@unperm_gather _ 0 0 (gather 0 p q) w) by (rewrite Lw; exact Hpq).
      f_equal. rewrite <- gather_gather by exact Hb. unfold w.
      rewrite gather_unperm by (rewrite Lu; exact Hp). unfold u.
      apply gather_unperm. exact Hq'.
  Qed.

  Lemma transpose_id (t : tensor) : teq (transpose t (seq 0 (rank t))) t.
  Proof.
    split; cbn [transpose shape elt]; unfold rank.
    - apply gather_seq.
    - intros ix Hv. rewrite gather_seq in Hv. f_equal. pose proof (valid_length Hv) as L.
      rewrite <- L. rewrite <- (gather_seq 0 ix) at 2. apply unperm_gather. apply is_perm_seq.
  Qed.

  (** *** tensordot respects teq *)
  Lemma teq_tensordot (a a' b b' : tensor) ax bx :
    NoDup ax -> NoDup bx -> (forall i, In i ax -> i < rank a) -> (forall i, In i bx -> i < rank b) ->
    gather 0 (shape a) ax = gather 0 (shape b) bx ->
    teq a a' -> teq b b' -> teq (tensordot a b ax bx) (tensordot a' b' ax bx).
  Proof.
    intros Na Nb Ba Bb Esh [A1 A2] [B1 B2]. unfold rank in *. unfold tensordot, rank.
    rewrite <- A1, <- B1. split; cbn [shape elt]; [reflexivity|].
    intros ix Hv.
    assert (length (gather 0 (shape a) (free_axes (length (shape a)) ax)) = length (free_axes (length (shape a)) ax)) as El
      by apply gather_length.
    apply valid_app_inv in Hv. rewrite El in Hv. destruct Hv as [V1 V2].
    apply lsum_ext. intros vs Hvs. apply In_idxs in Hvs. f_equal.
    - apply A2. apply valid_unperm; [apply free_axes_perm; assumption|].
      rewrite gather_app. apply valid_app; assumption.
    - apply B2. apply valid_unperm; [apply free_axes_perm; assumption|].
      rewrite gather_app. apply valid_app; [assumption|]. rewrite <- Esh. assumption.
  Qed.

  Lemma teq_outer (a a' b b' : tensor) : teq a a' -> teq b b' -> teq (outer a b) (outer a' b').
  Proof.
    intros [A1 A2] [B1 B2]. unfold outer, rank. rewrite <- A1, <- B1. split; cbn [shape elt]; [reflexivity|].
    intros ix Hv. apply valid_app_inv in Hv. destruct Hv. f_equal; auto.
  Qed.
End TF.
