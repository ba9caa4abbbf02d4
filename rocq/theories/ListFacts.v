(** * ListFacts: facts about numpy-style list operations of BlockSparse.v *)
From Verif Require Import Prelude Algebra Tensor TensorFacts Res Charge ChargeFacts BlockSparse.
Set Implicit Arguments.
Unset Strict Implicit.

Notation ixdec := (list_eq_dec Nat.eq_dec).

(** ** index tuples *)
Lemma flat_map_map A B C (f : B -> list C) (g : A -> B) l : flat_map f (map g l) = flat_map (fun x => f (g x)) l.
Proof. induction l; cbn; [reflexivity|]. rewrite IHl. reflexivity. Qed.
Lemma map_flat_map A B C (f : B -> C) (g : A -> list B) l : map f (flat_map g l) = flat_map (fun x => map f (g x)) l.
Proof. induction l; cbn; [reflexivity|]. rewrite map_app, IHl. reflexivity. Qed.
Lemma flat_map_flat_map A B C (f : B -> list C) (g : A -> list B) l :
  flat_map f (flat_map g l) = flat_map (fun x => flat_map f (g x)) l.
Proof. induction l; cbn; [reflexivity|]. rewrite flat_map_app, IHl. reflexivity. Qed.
Lemma flat_map_ext_in A B (f g : A -> list B) l : (forall x, In x l -> f x = g x) -> flat_map f l = flat_map g l.
Proof.
  induction l as [|x r IH]; intros H; cbn; [reflexivity|].
  rewrite (H x), IH; auto using in_eq. intros; apply H; right; assumption.
Qed.
Lemma flat_map_filter A B (f : A -> list B) (p : A -> bool) l : (forall x, In x l -> p x = false -> f x = []) ->
  flat_map f (filter p l) = flat_map f l.
Proof.
  induction l as [|x r IH]; intros H; cbn; [reflexivity|].
  destruct (p x) eqn:E; cbn; rewrite IH by (intros; apply H; [right|]; assumption); [reflexivity|].
  rewrite (H x); auto using in_eq.
Qed.
Lemma filter_flat_map A B (f : A -> list B) (p : B -> bool) l :
  filter p (flat_map f l) = flat_map (fun x => filter p (f x)) l.
Proof. induction l; cbn; [reflexivity|]. rewrite filter_app, IHl. reflexivity. Qed.
Lemma filter_map_comm A B (f : A -> B) (p : B -> bool) l : filter p (map f l) = map f (filter (fun x => p (f x)) l).
Proof. induction l; cbn; [reflexivity|]. destruct (p (f a)); cbn; rewrite IHl; reflexivity. Qed.
Lemma filter_filter A (p q : A -> bool) l : filter p (filter q l) = filter (fun x => q x && p x) l.
Proof. induction l; cbn; [reflexivity|]. destruct (q a); cbn; [destruct (p a)|]; rewrite IHl; reflexivity. Qed.
Lemma filter_all A (p : A -> bool) l : (forall x, In x l -> p x = true) -> filter p l = l.
Proof.
  induction l as [|x r IH]; intros H; cbn; [reflexivity|].
  rewrite (H x), IH; auto using in_eq. intros; apply H; right; assumption.
Qed.
Lemma filter_none A (p : A -> bool) l : (forall x, In x l -> p x = false) -> filter p l = [].
Proof.
  induction l as [|x r IH]; intros H; cbn; [reflexivity|].
  rewrite (H x), IH; auto using in_eq. intros; apply H; right; assumption.
Qed.
Lemma flat_map_const_length A B (f : A -> list B) n l : (forall x, In x l -> length (f x) = n) ->
  length (flat_map f l) = length l * n.
Proof.
  induction l as [|x r IH]; intros H; cbn; [reflexivity|].
  rewrite app_length, (H x), IH; auto using in_eq. intros; apply H; right; assumption.
Qed.
Lemma flat_map_nil A B (l : list A) : flat_map (fun _ => @nil B) l = [].
Proof. induction l; auto. Qed.

Lemma idxs_app s1 s2 : idxs (s1 ++ s2) = flat_map (fun a => map (fun b => a ++ b) (idxs s2)) (idxs s1).
Proof.
  induction s1 as [|d r IH]; cbn.
  - rewrite app_nil_r, map_id. reflexivity.
  - rewrite flat_map_flat_map. apply flat_map_ext_in. intros i _. rewrite IH, map_flat_map, flat_map_map.
    apply flat_map_ext_in. intros a _. rewrite map_map. reflexivity.
Qed.
Lemma idxs_single d : idxs [d] = map (fun i => [i]) (seq 0 d).
Proof. cbn. generalize (seq 0 d). intros s. induction s; cbn; [reflexivity|]. rewrite IHs. reflexivity. Qed.
Lemma map_map_cons A (f : nat -> A) (s : list nat) : map f s = map (fun ix => f (nth 0 ix 0)) (map (fun i => [i]) s).
Proof. rewrite map_map. reflexivity. Qed.

Lemma ravel_app s1 s2 a b : length a = length s1 -> ravel (s1 ++ s2) (a ++ b) = ravel s1 a * nprod s2 + ravel s2 b.
Proof.
  revert a. induction s1 as [|d r IH]; intros [|i a] H; cbn in *; try discriminate; [reflexivity|].
  rewrite IH by congruence. rewrite nprod_app. ring.
Qed.
Lemma nth_error_idxs s ix : valid ix s -> nth_error (idxs s) (ravel s ix) = Some ix.
Proof.
  intros H. rewrite <- (nth_idxs H) at 2. apply nth_error_nth'. rewrite length_idxs. apply ravel_lt, H.
Qed.

(** ** cumulative sums *)
Definition nsumf {A} (f : A -> nat) (l : list A) : nat := list_sum (map f l).
Lemma nsumf_cons A (f : A -> nat) x l : nsumf f (x :: l) = f x + nsumf f l.
Proof. reflexivity. Qed.
Lemma nth_cumsum_from acc l i : i < length l -> nth i (cumsum_from acc l) 0 = acc + list_sum (firstn (S i) l).
Proof.
  revert acc i. induction l as [|x r IH]; intros acc [|i] H; cbn in *; try lia.
  rewrite IH by lia. cbn. lia.
Qed.
Lemma cumsum_from_length acc l : length (cumsum_from acc l) = length l.
Proof. revert acc. induction l; intros; cbn; [reflexivity|]. rewrite IHl. reflexivity. Qed.
Lemma firstn_removelast A i (l : list A) : i < length l -> firstn i (removelast l) = firstn i l.
Proof. intros H. rewrite removelast_firstn_len, firstn_firstn. f_equal. lia. Qed.
(** both exclusive prefix sums of the code *)
Lemma excl_sum_nth l i : i < length l -> nth i (0 :: cumsum (removelast l)) 0 = list_sum (firstn i l).
Proof.
  intros H. destruct i as [|i]; [reflexivity|]. cbn [nth]. unfold cumsum.
  rewrite nth_cumsum_from.
  - cbn [Nat.add]. rewrite firstn_removelast by exact H. reflexivity.
  - rewrite removelast_firstn_len, firstn_length. lia.
Qed.
Lemma excl_sum_nth' l i : i < length l -> nth i (cumsum (0 :: removelast l)) 0 = list_sum (firstn i l).
Proof.
  intros H. unfold cumsum. cbn [cumsum_from]. apply excl_sum_nth in H. exact H.
Qed.
Lemma excl_sum_length l : l <> [] -> length (0 :: cumsum (removelast l)) = length l.
Proof.
  intros H. unfold cumsum. cbn [length]. rewrite cumsum_from_length, removelast_firstn_len, firstn_length.
  destruct l; [congruence|]. cbn. lia.
Qed.

(** ** positions in a concatenation *)
Lemma nth_error_flat_map A B (f : A -> list B) l i a j : nth_error l i = Some a -> j < length (f a) ->
  nth_error (flat_map f l) (nsumf (fun x => length (f x)) (firstn i l) + j) = nth_error (f a) j.
Proof.
  revert i. induction l as [|x r IH]; intros [|i] H Hj; cbn in H; try discriminate.
  - injection H as ->. cbn. apply nth_error_app1, Hj.
  - cbn [firstn]. rewrite nsumf_cons. cbn [flat_map]. rewrite nth_error_app2 by lia.
    rewrite <- IH with (i := i) by assumption. f_equal. lia.
Qed.
Lemma index_of_nth_error A (dec : forall x y : A, {x = y} + {x <> y}) l k x :
  NoDup l -> nth_error l k = Some x -> index_of dec x l = k.
Proof.
  intros H E. assert (k < length l) as Hk by (apply nth_error_Some; congruence).
  rewrite <- (nth_error_nth l k x E). apply index_of_nth; assumption.
Qed.
Lemma nth_error_index_of A (dec : forall x y : A, {x = y} + {x <> y}) l x :
  In x l -> nth_error l (index_of dec x l) = Some x.
Proof.
  intros H. rewrite (@nth_error_nth' _ l (index_of dec x l) x) by (apply index_of_lt, H). f_equal. apply nth_index_of, H.
Qed.

(** ** masks *)
Lemma In_flatnonzero bs j : In j (flatnonzero bs) <-> j < length bs /\ nth j bs false = true.
Proof. unfold flatnonzero. rewrite filter_In, in_seq. split; intros [H1 H2]; (split; [lia | exact H2]). Qed.
Lemma NoDup_flatnonzero bs : NoDup (flatnonzero bs).
Proof. apply NoDup_filter, seq_NoDup. Qed.
Lemma flatnonzero_lt bs j : In j (flatnonzero bs) -> j < length bs.
Proof. rewrite In_flatnonzero. tauto. Qed.
Lemma flatnonzero_cons b bs : flatnonzero (b :: bs) = (if b then [0] else []) ++ map S (flatnonzero bs).
Proof.
  unfold flatnonzero. cbn [length seq filter nth].
  rewrite <- seq_shift, filter_map_comm. cbn [nth]. destruct b; reflexivity.
Qed.
Lemma flatnonzero_map A (f : A -> bool) l d : flatnonzero (map f l) = filter (fun j => f (nth j l d)) (seq 0 (length l)).
Proof.
  unfold flatnonzero. rewrite map_length. apply filter_ext_in. intros j Hj. apply in_seq in Hj.
  rewrite (nth_indep _ false (f d)) by (rewrite map_length; lia). rewrite map_nth. reflexivity.
Qed.
(** selecting by a mask computed from the same list is filtering *)
Lemma masked_map A (f : A -> bool) d (l : list A) : masked d l (map f l) = filter f l.
Proof.
  induction l as [|x r IH]; [reflexivity|]. unfold masked in *. cbn [map]. rewrite flatnonzero_cons.
  rewrite gather_app. unfold gather in *. rewrite map_map. cbn [nth]. rewrite IH. cbn [filter].
  destruct (f x); reflexivity.
Qed.
(** selecting from [g] of a list by a mask computed by [f] of the list *)
Lemma masked_map2 A B (f : A -> bool) (g : A -> B) d (l : list A) : masked d (map g l) (map f l) = map g (filter f l).
Proof.
  induction l as [|x r IH]; [reflexivity|]. unfold masked in *. cbn [map]. rewrite flatnonzero_cons.
  rewrite gather_app. unfold gather in *. rewrite map_map. cbn [nth]. rewrite IH. cbn [filter].
  destruct (f x); reflexivity.
Qed.
Lemma map_somes A B C (l : list A) (p : A -> bool) (k : A -> B) (f : B -> C) :
  map f (somes (map (fun x => if p x then Some (k x) else None) l)) = map (fun x => f (k x)) (filter p l).
Proof.
  induction l as [|x r IH]; [reflexivity|]. cbn. destruct (p x); cbn; unfold somes in IH; rewrite IH; reflexivity.
Qed.
Lemma somes_if A B (l : list A) (p : A -> bool) (k : A -> B) :
  somes (map (fun x => if p x then Some (k x) else None) l) = map k (filter p l).
Proof. rewrite <- (map_id (somes _)). apply map_somes. Qed.

(** ** scatter *)
Lemma set_nth_length A i (v : A) l : length (set_nth i v l) = length l.
Proof. revert i. induction l as [|x r IH]; intros [|i]; cbn; auto. Qed.
Lemma nth_set_nth A i j (v : A) l d : i < length l -> nth j (set_nth i v l) d = if Nat.eqb j i then v else nth j l d.
Proof.
  revert i j. induction l as [|x r IH]; intros [|i] [|j] H; cbn in *; try lia; try reflexivity.
  apply IH. lia.
Qed.
Lemma scatter_length A (a : list A) ps vs : length (scatter a ps vs) = length a.
Proof.
  unfold scatter. revert a. generalize (combine ps vs). intros l. induction l as [|x r IH]; intros a; cbn; [reflexivity|].
  rewrite IH. apply set_nth_length.
Qed.
Lemma scatter_notin A (a : list A) ps vs j d : (forall p, In p ps -> p < length a) -> ~ In j ps ->
  nth j (scatter a ps vs) d = nth j a d.
Proof.
  unfold scatter. revert vs a. induction ps as [|p r IH]; intros [|v vs] a H Hj; cbn; try reflexivity.
  rewrite IH.
  - rewrite nth_set_nth by (apply H; left; reflexivity). destruct (Nat.eqb_spec j p) as [E|N]; [|reflexivity].
    exfalso. apply Hj. left. congruence.
  - intros q Hq. rewrite set_nth_length. apply H. right. exact Hq.
  - intros Hq. apply Hj. right. exact Hq.
Qed.
Lemma scatter_nth A (a : list A) ps vs k d : NoDup ps -> length ps = length vs -> (forall p, In p ps -> p < length a) ->
  k < length ps -> nth (nth k ps 0) (scatter a ps vs) d = nth k vs d.
Proof.
  revert vs a k. induction ps as [|p r IH]; intros [|v vs] a k Hn E H Hk; cbn in E, Hk; try lia; try discriminate.
  inversion Hn as [|? ? Hp Hr]; subst. injection E as E.
  destruct k as [|k]; cbn [nth].
  - change (scatter a (p :: r) (v :: vs)) with (scatter (set_nth p v a) r vs).
    rewrite scatter_notin; [|intros q Hq; rewrite set_nth_length; apply H; right; exact Hq | exact Hp].
    rewrite nth_set_nth by (apply H; left; reflexivity). rewrite Nat.eqb_refl. reflexivity.
  - change (scatter a (p :: r) (v :: vs)) with (scatter (set_nth p v a) r vs).
    apply IH; auto; [|lia]. intros q Hq. rewrite set_nth_length. apply H. right. exact Hq.
Qed.
Lemma scatter_in A (a : list A) ps vs j d : NoDup ps -> length ps = length vs -> (forall p, In p ps -> p < length a) ->
  In j ps -> nth j (scatter a ps vs) d = nth (nindex j ps) vs d.
Proof.
  intros Hn E H Hj. rewrite <- (@nth_index_of _ Nat.eq_dec j ps 0 Hj) at 1.
  apply scatter_nth; auto. apply index_of_lt, Hj.
Qed.

(** ** nth and gather *)
Lemma nth_gather_lt A (d : A) l ix k : k < length ix -> nth k (gather d l ix) d = nth (nth k ix 0) l d.
Proof. apply nth_gather. Qed.
Lemma nth_map_lt A B (f : A -> B) l i d e : i < length l -> nth i (map f l) d = f (nth i l e).
Proof. intros H. rewrite (nth_indep _ d (f e)) by (rewrite map_length; exact H). apply map_nth. Qed.
Lemma nth_map_seq A (f : nat -> A) n i d : i < n -> nth i (map f (seq 0 n)) d = f i.
Proof. intros H. rewrite (@nth_map_lt _ _ f (seq 0 n) i d 0) by (rewrite seq_length; exact H). rewrite seq_nth by exact H. reflexivity. Qed.
Lemma nth_inv_map n ps j : j < n -> nth j (inv_map n ps) None = if mem j ps then Some (nindex j ps) else None.
Proof. intros H. unfold inv_map. rewrite nth_map_seq by exact H. reflexivity. Qed.
Lemma index_of_seq n i : i < n -> nindex i (seq 0 n) = i.
Proof.
  intros H. rewrite <- (@seq_nth n 0 i 0 H) at 1. cbn [Nat.add].
  apply index_of_nth; [apply seq_NoDup | rewrite seq_length; exact H].
Qed.

(** ** equality of lists by positions *)
Lemma list_ext A (l l' : list A) d : length l = length l' -> (forall i, i < length l -> nth i l d = nth i l' d) -> l = l'.
Proof. intros H1 H2. apply (nth_ext _ _ d d); assumption. Qed.

Lemma find_best_partition_ok dims : 2 <= length dims ->
  exists p, find_best_partition dims = Ok p /\ 1 <= p /\ p < length dims.
Proof.
  intros H. unfold find_best_partition. destruct (Nat.leb_spec (length dims) 1); [lia|]. cbv zeta.
  set (diffs := map _ (seq 1 _)). set (m := fold_right _ _ diffs).
  assert (length diffs = length dims - 1) as Ld by (unfold diffs; rewrite map_length, seq_length; reflexivity).
  set (mi := flatnonzero _).
  assert (forall i, In i mi -> i < length dims - 1) as Hi.
  { intros i Hi. apply flatnonzero_lt in Hi. rewrite map_length, Ld in Hi. exact Hi. }
  assert (In m diffs) as Hm.
  { unfold m. destruct diffs as [|x r] eqn:E; [cbn in Ld; lia|]. cbn [nth]. clear.
    assert (forall l, In (fold_right Nat.min x l) (x :: l)) as Hl.
    { induction l as [|y l IH]; [left; reflexivity|]. cbn [fold_right].
      destruct (Nat.min_spec y (fold_right Nat.min x l)) as [[_ ->]|[_ ->]].
      - right. left. reflexivity.
      - destruct IH as [IH|IH]; [left; exact IH | right; right; exact IH]. }
    destruct (Hl (x :: r)) as [E|E]; [left; exact E | exact E]. }
  destruct (In_nth _ _ 0 Hm) as (k & Hk & Ek).
  assert (In k mi) as Hkm.
  { apply In_flatnonzero. rewrite map_length. split; [exact Hk|].
    rewrite (@nth_map_lt _ _ _ _ _ _ 0) by exact Hk. rewrite Ek. apply Nat.eqb_refl. }
  destruct (1 <? length mi) eqn:E1.
  - set (rd := map _ mi). eexists. split; [reflexivity|].
    assert (nindex (list_max rd) rd < length mi) as Hr.
    { replace (length mi) with (length rd) by apply map_length. apply index_of_lt.
      assert (rd <> []) as Hne.
      { unfold rd. destruct mi; [destruct Hkm | discriminate]. }
      clear -Hne. induction rd as [|x r IH]; [congruence|]. cbn [list_max fold_right].
      destruct r as [|y r']; [left; cbn; lia|].
      change (fold_right Nat.max 0 (y :: r')) with (list_max (y :: r')) in *.
      destruct (Nat.max_spec x (list_max (y :: r'))) as [[_ ->]|[_ ->]]; [right; apply IH; discriminate | left; reflexivity]. }
    pose proof (Hi _ (nth_In mi 0 Hr)). lia.
  - eexists. split; [reflexivity|].
    assert (0 < length mi) as Hp0 by (destruct mi; [destruct Hkm | cbn; lia]).
    pose proof (Hi _ (nth_In mi 0 Hp0)). lia.
Qed.
