(** * StridesFacts: proofs about the stride helpers and the best partition *)
From Coq Require Import Permutation ZArith.
From Verif Require Import Prelude Algebra Tensor TensorFacts Res BlockSparse ListFacts BstOps BlockReduce BlockMaps NetworkFacts Strides.
Set Implicit Arguments.
Unset Strict Implicit.
Open Scope nat_scope.

Lemma cumprod_snoc a l x : cumprod_from a (l ++ [x]) = cumprod_from a l ++ [a * nprod l * x].
Proof.
  revert a. induction l as [|y l IH]; intros a; cbn [cumprod_from app]; [cbn; do 2 f_equal; lia|].
  rewrite IH. change (nprod (y :: l)) with (y * nprod l). cbn [app]. do 3 f_equal. ring.
Qed.
Lemma nprod_rev l : nprod (rev l) = nprod l.
Proof. apply nprod_perm. symmetry. apply Permutation_rev. Qed.
Lemma get_strides_of dims : dims <> [] -> get_strides dims = strides_of dims.
Proof.
  induction dims as [|d [|e r] IH]; intros H; [congruence | reflexivity |].
  rewrite strides_of_cons, <- IH by discriminate. unfold get_strides. cbn [skipn rev].
  rewrite cumprod_snoc. rewrite nprod_rev. rewrite rev_app_distr. cbn [rev app]. f_equal. change (nprod (e :: r)) with (e * nprod r). ring.
Qed.
Lemma strides_pos dims : nprod dims <> 0 -> forall s, In s (strides_of dims) -> s <> 0.
Proof.
  induction dims as [|d ds IH]; intros H s Hs; [destruct Hs|]. rewrite strides_of_cons in Hs. change (nprod (d :: ds)) with (d * nprod ds) in H.
  assert (nprod ds <> 0) as H' by (intros E; apply H; rewrite E; apply Nat.mul_0_r).
  destruct Hs as [<- | Hs]; [exact H' | apply (IH H'), Hs].
Qed.
Lemma fuse_strides_ok dims st : dims <> [] -> length st = length dims -> (forall s, In s st -> s <> 0) ->
  fuse_strides dims st = Ok (map (dotp st) (idxs dims)).
Proof.
  intros H1 H2 H3. unfold fuse_strides. destruct (Nat.eqb_spec (length dims) 0) as [E|_]; [destruct dims; cbn in *; congruence|].
  destruct (Nat.ltb_spec (length st) (length dims)); [lia|]. cbn [orb].
  destruct (existsb (Nat.eqb 0) (firstn (length dims) st)) eqn:E.
  - apply existsb_exists in E as (s & Hs & E). apply Nat.eqb_eq in E. exfalso. apply (H3 s); [|congruence].
    rewrite <- H2, firstn_all in Hs. exact Hs.
  - f_equal. apply fuse_stride_arrays_spec; assumption.
Qed.
Lemma fuse_strides_seq dims : dims <> [] -> nprod dims <> 0 -> fuse_strides dims (get_strides dims) = Ok (seq 0 (nprod dims)).
Proof.
  intros H1 H2. rewrite get_strides_of by exact H1. rewrite fuse_strides_ok; [|exact H1 | apply strides_of_length | apply strides_pos, H2].
  f_equal. rewrite <- idxs_ravel. apply map_ext_in. intros ix Hx. apply In_idxs, valid_length in Hx. apply dotp_strides, Hx.
Qed.

(** ** the best partition *)
Lemma flatnonzero_incr bs : forall i j, i < j -> j < length (flatnonzero bs) -> nth i (flatnonzero bs) 0 < nth j (flatnonzero bs) 0.
Proof.
  induction bs as [|b bs IH]; intros i j Hi Hj; [cbn in Hj; lia|]. rewrite flatnonzero_cons in *.
  assert (forall i j, i < j -> j < length (flatnonzero bs) -> nth i (map S (flatnonzero bs)) 0 < nth j (map S (flatnonzero bs)) 0) as K.
  { intros i' j' H1 H2. rewrite !(@nth_map_lt _ _ _ _ _ _ 0) by lia. specialize (IH i' j' H1 H2). lia. }
  destruct b; cbn [app] in *.
  - cbn [length] in Hj. rewrite map_length in Hj. destruct j as [|j]; [lia|]. cbn [nth]. destruct i as [|i]; [|apply K; lia].
    rewrite (@nth_map_lt _ _ _ _ _ _ 0) by lia. lia.
  - rewrite map_length in Hj. apply K; assumption.
Qed.
Lemma nindex_first x l j : j < nindex x l -> nth j l (S x) <> x.
Proof.
  revert j. induction l as [|y l IH]; intros j H; [destruct j; cbn; lia|]. cbn in H. destruct (Nat.eq_dec x y) as [E|E]; [lia|].
  destruct j as [|j]; cbn; [congruence|]. apply IH. lia.
Qed.
Lemma list_max_In l : l <> [] -> In (list_max l) l.
Proof.
  induction l as [|x r IH]; [congruence|]. intros _. cbn [list_max fold_right]. destruct r as [|y r']; [left; cbn; lia|].
  destruct (Nat.max_spec x (fold_right Nat.max 0 (y :: r'))) as [[_ ->]|[_ ->]]; [right; apply IH; discriminate | left; reflexivity].
Qed.
Lemma list_max_ge l x : In x l -> x <= list_max l.
Proof. intros H. pose proof (proj1 (list_max_le l (list_max l)) (le_n _)) as F. rewrite Forall_forall in F. apply F, H. Qed.
Lemma fold_min_le x l y : In y l -> fold_right Nat.min x l <= y.
Proof. induction l as [|z l IH]; intros H; [destruct H|]. cbn [fold_right]. destruct H as [->|H]; [lia|]. specialize (IH H). lia. Qed.
Lemma fold_min_In x l : In x l -> In (fold_right Nat.min x l) l.
Proof.
  intros H. assert (fold_right Nat.min x l = x \/ In (fold_right Nat.min x l) l) as [E|E]; [|rewrite E; exact H | exact E].
  clear H. induction l as [|y l IH]; [left; reflexivity|]. cbn [fold_right].
  destruct (Nat.min_spec y (fold_right Nat.min x l)) as [[_ ->]|[_ ->]]; [right; left; reflexivity|].
  destruct IH as [IH|IH]; [left; exact IH | right; right; exact IH].
Qed.
(** the distance of the two sides of a partition *)
Definition gap (dims : list nat) (p : nat) : Z := Z.abs (Z.of_nat (nprod (firstn p dims)) - Z.of_nat (nprod (skipn p dims))).
Lemma absdiff_gap a b : Z.of_nat (absdiff a b) = Z.abs (Z.of_nat a - Z.of_nat b).
Proof. unfold absdiff. lia. Qed.
Lemma best_partition dims : 2 <= length dims -> exists p, find_best_partition dims = Ok p /\ 1 <= p < length dims /\
  forall q, 1 <= q < length dims -> (gap dims p <= gap dims q)%Z /\
    (gap dims q = gap dims p -> nprod (skipn q dims) <= nprod (skipn p dims) /\
      (nprod (skipn q dims) = nprod (skipn p dims) -> p <= q)).
Proof.
  intros H. unfold find_best_partition. destruct (Nat.leb_spec (length dims) 1); [lia|]. cbv zeta.
  set (f := fun n => absdiff (nprod (firstn n dims)) (nprod (skipn n dims))).
  set (diffs := map f (seq 1 (length dims - 1))). set (m := fold_right Nat.min (nth 0 diffs 0) diffs).
  assert (length diffs = length dims - 1) as Ld by (unfold diffs; rewrite map_length, seq_length; reflexivity).
  assert (forall i, i < length diffs -> nth i diffs 0 = f (i + 1)) as Hn.
  { intros i Hi. unfold diffs. rewrite (@nth_map_lt _ _ _ _ _ _ 0) by (rewrite seq_length; lia). rewrite seq_nth by lia. f_equal. lia. }
  assert (forall p, Z.of_nat (f p) = gap dims p) as Hg by (intros p; apply absdiff_gap).
  set (mi := flatnonzero _).
  assert (forall i, In i mi <-> i < length dims - 1 /\ f (i + 1) = m) as Hi.
  { intros i. unfold mi. rewrite In_flatnonzero, map_length, Ld. split; intros [H1 H2]; (split; [exact H1|]).
    - rewrite (@nth_map_lt _ _ _ _ _ _ 0) in H2 by lia. apply Nat.eqb_eq in H2. rewrite Hn in H2 by lia. exact H2.
    - rewrite (@nth_map_lt _ _ _ _ _ _ 0) by lia. rewrite Hn by lia. apply Nat.eqb_eq, H2. }
  assert (forall q, 1 <= q < length dims -> m <= f q) as Hle.
  { intros q Hq. apply fold_min_le. replace q with ((q - 1) + 1) by lia. rewrite <- Hn by lia. apply nth_In. lia. }
  assert (mi <> []) as Hne.
  { assert (In m diffs) as Hm by (apply fold_min_In, nth_In; lia). destruct (In_nth _ _ 0 Hm) as (k & Hk & Ek).
    intros E. assert (In k mi) as Hk' by (apply Hi; rewrite <- Hn by exact Hk; split; [lia|exact Ek]). rewrite E in Hk'. destruct Hk'. }
  assert (forall i, In i mi ->
    (forall q, In q mi -> nprod (skipn (q + 1) dims) <= nprod (skipn (i + 1) dims) /\ (nprod (skipn (q + 1) dims) = nprod (skipn (i + 1) dims) -> i <= q)) ->
    1 <= i + 1 < length dims /\ forall q, 1 <= q < length dims -> (gap dims (i + 1) <= gap dims q)%Z /\
    (gap dims q = gap dims (i + 1) -> nprod (skipn q dims) <= nprod (skipn (i + 1) dims) /\
      (nprod (skipn q dims) = nprod (skipn (i + 1) dims) -> i + 1 <= q))) as Fin.
  { intros i Hin Hb. apply Hi in Hin as [H1 H2]. split; [lia|]. intros q Hq. specialize (Hle q Hq). rewrite <- !Hg. split; [lia|]. intros Eq.
    assert (In (q - 1) mi) as Hq' by (apply Hi; replace (q - 1 + 1) with q by lia; split; lia).
    destruct (Hb _ Hq') as [B1 B2]. replace (q - 1 + 1) with q in * by lia. split; [exact B1|]. intros E. specialize (B2 E). lia. }
  destruct (1 <? length mi) eqn:E1.
  - set (rd := map _ mi). eexists. split; [reflexivity|].
    assert (length rd = length mi) as Lr by apply map_length.
    assert (rd <> []) as Hr by (intros E; apply Hne; destruct mi; [reflexivity | discriminate]).
    pose proof (list_max_In Hr) as Hmx.
    assert (nindex (list_max rd) rd < length mi) as Hx by (rewrite <- Lr; apply index_of_lt, Hmx).
    assert (forall j, j < length mi -> nth j rd 0 = nprod (skipn (nth j mi 0 + 1) dims)) as Hrd.
    { intros j Hj. unfold rd. rewrite (@nth_map_lt _ _ _ _ _ _ 0) by exact Hj. reflexivity. }
    assert (nth (nindex (list_max rd) rd) rd 0 = list_max rd) as Hv by (apply nth_index_of, Hmx).
    apply Fin; [apply nth_In, Hx|]. intros q Hq. rewrite <- (Hrd _ Hx), Hv. destruct (In_nth _ _ 0 Hq) as (j & Hj & <-). rewrite <- (Hrd _ Hj).
    split; [apply list_max_ge, nth_In; lia|]. intros E. destruct (Nat.lt_trichotomy j (nindex (list_max rd) rd)) as [L|[L|L]].
    + exfalso. apply (nindex_first L). rewrite (nth_indep _ _ 0) by lia. exact E.
    + rewrite L. lia.
    + apply Nat.lt_le_incl, flatnonzero_incr; assumption.
  - eexists. split; [reflexivity|]. apply Nat.ltb_ge in E1. apply Fin.
    + apply nth_In. destruct mi; [congruence | cbn; lia].
    + intros q Hq. destruct mi as [|a [|b r]]; [congruence | | cbn in E1; lia]. destruct Hq as [<-|[]]. cbn [nth]. lia.
Qed.

(** ** strides in another order *)
Lemma fuse_strides_perm dims p : dims <> [] -> nprod dims <> 0 -> is_perm (length dims) p ->
  exists ps, fuse_strides (gather 0 dims p) (gather 0 (get_strides dims) p) = Ok ps /\ length ps = nprod dims /\
    forall ix, valid ix dims -> nth_error ps (ravel (gather 0 dims p) (gather 0 ix p)) = Some (ravel dims ix).
Proof.
  intros H1 H2 Hp. rewrite get_strides_of by exact H1. pose proof (is_perm_length Hp) as Lp.
  assert (Permutation (gather 0 dims p) dims) as Pd by (apply gather_perm, Hp).
  eexists. split; [apply fuse_strides_ok|].
  - intros E. rewrite E in Pd. apply Permutation_nil in Pd. congruence.
  - rewrite !gather_length. reflexivity.
  - intros s Hs. apply in_map_iff in Hs as (i & <- & Hi). apply (is_perm_In i Hp) in Hi. apply (strides_pos H2). apply nth_In. rewrite strides_of_length. exact Hi.
  - split; [rewrite map_length, length_idxs; apply nprod_perm, Pd|]. intros ix Hx. pose proof (valid_length Hx) as Lx.
    rewrite nth_error_map, nth_error_idxs; [|apply valid_gather; [exact Hx|]].
    + cbn [option_map]. f_equal. rewrite (@dotp_unperm (length dims)) by (rewrite ?gather_length, ?strides_of_length; auto; lia).
      rewrite unperm_gather by (rewrite Lx; exact Hp). apply dotp_strides. exact Lx.
    + intros i Hi. apply (is_perm_In i Hp), Hi.
Qed.
