(** * Prelude: list utilities used by every layer.
    Nothing in this file models code; it is a small library. *)
From Coq Require Export List Arith Lia Bool Permutation.
Export ListNotations.
Set Implicit Arguments.

(** ** Positions *)

Definition mem (i : nat) (l : list nat) : bool := existsb (Nat.eqb i) l.

Lemma mem_In i l : mem i l = true <-> In i l.
Proof.
  unfold mem. rewrite existsb_exists. split.
  - intros [x [Hx E]]. apply Nat.eqb_eq in E. subst. exact Hx.
  - intros H. exists i. split; [exact H | apply Nat.eqb_refl].
Qed.

Lemma mem_nIn i l : mem i l = false <-> ~ In i l.
Proof.
  rewrite <- mem_In. destruct (mem i l); split; intros; try congruence; try (exfalso; auto; fail).
Qed.

Section IndexOf.
  Variable A : Type.
  Variable eqd : forall x y : A, {x = y} + {x <> y}.

  (** position of the first occurrence (length if absent), python's [list.index] *)
  Fixpoint index_of (x : A) (l : list A) : nat :=
    match l with
    | [] => 0
    | y :: r => if eqd x y then 0 else S (index_of x r)
    end.

  Lemma index_of_lt x l : In x l -> index_of x l < length l.
  Proof.
    induction l as [|y r IH]; simpl; [tauto|].
    intros H. destruct (eqd x y) as [E|E]; [lia|].
    destruct H as [H|H]; [congruence|]. apply IH in H. lia.
  Qed.

  Lemma index_of_le x l : index_of x l <= length l.
  Proof.
    induction l as [|y r IH]; simpl; [lia|]. destruct (eqd x y); lia.
  Qed.

  Lemma index_of_notin x l : ~ In x l -> index_of x l = length l.
  Proof.
    induction l as [|y r IH]; simpl; intros H; [reflexivity|].
    destruct (eqd x y) as [E|E]; [exfalso; apply H; left; congruence|].
    f_equal. apply IH. tauto.
  Qed.

  Lemma nth_index_of x l d : In x l -> nth (index_of x l) l d = x.
  Proof.
    induction l as [|y r IH]; simpl; [tauto|].
    intros H. destruct (eqd x y) as [E|E]; [congruence|].
    destruct H as [H|H]; [congruence|]. auto.
  Qed.

  Lemma index_of_nth k l d : NoDup l -> k < length l -> index_of (nth k l d) l = k.
  Proof.
    revert k. induction l as [|y r IH]; simpl; intros k HN Hk; [lia|].
    inversion HN as [|? ? Hy HN']; subst.
    destruct k as [|k].
    - destruct (eqd y y); congruence.
    - destruct (eqd (nth k r d) y) as [E|E].
      + exfalso. apply Hy. rewrite <- E. apply nth_In. lia.
      + f_equal. apply IH; [assumption|lia].
  Qed.

  Lemma index_of_app_l x l1 l2 : In x l1 -> index_of x (l1 ++ l2) = index_of x l1.
  Proof.
    induction l1 as [|y r IH]; simpl; [tauto|].
    intros H. destruct (eqd x y); [reflexivity|]. f_equal. apply IH. destruct H; [congruence|assumption].
  Qed.

  Lemma index_of_app_r x l1 l2 : ~ In x l1 -> index_of x (l1 ++ l2) = length l1 + index_of x l2.
  Proof.
    induction l1 as [|y r IH]; simpl; intros H; [reflexivity|].
    destruct (eqd x y) as [E|E]; [exfalso; apply H; left; congruence|]. f_equal. apply IH. tauto.
  Qed.
End IndexOf.

Notation nindex := (index_of Nat.eq_dec).

(** ** Gather: numpy fancy indexing of a list by a list of positions *)

Definition gather {A} (d : A) (l : list A) (ix : list nat) : list A := map (fun i => nth i l d) ix.

Lemma gather_length A (d : A) l ix : length (gather d l ix) = length ix.
Proof. unfold gather. apply map_length. Qed.

Lemma gather_app A (d : A) l ix jx : gather d l (ix ++ jx) = gather d l ix ++ gather d l jx.
Proof. unfold gather. apply map_app. Qed.

Lemma nth_gather A (d e : A) l ix k : k < length ix -> nth k (gather d l ix) e = nth (nth k ix 0) l d.
Proof.
  intros Hk. unfold gather.
  rewrite (nth_indep _ e (nth 0 l d)) by (rewrite map_length; lia).
  apply (map_nth (fun i => nth i l d) ix 0 k).
Qed.

Lemma gather_seq A (d : A) l : gather d l (seq 0 (length l)) = l.
Proof.
  apply (nth_ext _ _ d d).
  - rewrite gather_length, seq_length. reflexivity.
  - intros n Hn. rewrite gather_length, seq_length in Hn.
    rewrite nth_gather by (rewrite seq_length; lia). rewrite seq_nth by lia. reflexivity.
Qed.

Lemma map_gather A B (f : A -> B) (d : A) l ix e :
  (forall i, In i ix -> i < length l) -> map f (gather d l ix) = gather e (map f l) ix.
Proof.
  intros H. unfold gather. rewrite map_map. apply map_ext_in. intros i Hi.
  rewrite (nth_indep _ e (f d)) by (rewrite map_length; auto).
  symmetry. apply map_nth.
Qed.

Lemma gather_gather A (d : A) l ix jx :
  (forall j, In j jx -> j < length ix) ->
  gather d (gather d l ix) jx = gather d l (gather 0 ix jx).
Proof.
  intros H. unfold gather at 1 3. unfold gather at 2. rewrite map_map.
  apply map_ext_in. intros j Hj. apply nth_gather. auto.
Qed.

Lemma In_gather A (d : A) l ix x :
  In x (gather d l ix) <-> exists i, In i ix /\ x = nth i l d.
Proof.
  unfold gather. rewrite in_map_iff. split; intros [i [H1 H2]]; exists i; auto.
Qed.

Lemma NoDup_gather A (d : A) l ix :
  NoDup l -> NoDup ix -> (forall i, In i ix -> i < length l) -> NoDup (gather d l ix).
Proof.
  intros Hl Hix Hb. unfold gather.
  induction ix as [|i r IH]; simpl; constructor.
  - inversion Hix as [|? ? Hi Hr]; subst. rewrite in_map_iff. intros [j [E Hj]].
    assert (i = j).
    { symmetry. apply (proj1 (NoDup_nth l d) Hl);
        [apply Hb; right; exact Hj | apply Hb; left; reflexivity | exact E]. }
    subst. contradiction.
  - inversion Hix; subst. apply IH; auto. intros; apply Hb; right; assumption.
Qed.

(** ** Permutations of 0..n-1 *)

Definition is_perm (n : nat) (p : list nat) : Prop := Permutation p (seq 0 n).

Lemma is_perm_length n p : is_perm n p -> length p = n.
Proof. intros H. apply Permutation_length in H. rewrite seq_length in H. exact H. Qed.

Lemma is_perm_In n p i : is_perm n p -> (In i p <-> i < n).
Proof.
  intros H. split; intros Hi.
  - apply (Permutation_in _ H) in Hi. apply in_seq in Hi. lia.
  - apply (Permutation_in _ (Permutation_sym H)). apply in_seq. lia.
Qed.

Lemma is_perm_NoDup n p : is_perm n p -> NoDup p.
Proof. intros H. apply (Permutation_NoDup (Permutation_sym H)). apply seq_NoDup. Qed.

Lemma is_perm_intro n p :
  length p = n -> NoDup p -> (forall i, In i p -> i < n) -> is_perm n p.
Proof.
  intros Hl HN Hb. unfold is_perm.
  apply NoDup_Permutation_bis; [exact HN | rewrite seq_length; lia |].
  intros i Hi. apply in_seq. specialize (Hb i Hi). lia.
Qed.

Lemma is_perm_seq n : is_perm n (seq 0 n).
Proof. unfold is_perm. reflexivity. Qed.

Definition is_permb (n : nat) (p : list nat) : bool :=
  Nat.eqb (length p) n && forallb (fun i => mem i p) (seq 0 n).

Lemma is_permb_spec n p : is_permb n p = true <-> is_perm n p.
Proof.
  unfold is_permb. rewrite andb_true_iff, Nat.eqb_eq, forallb_forall. split.
  - intros [Hl Hm]. unfold is_perm. apply Permutation_sym. apply NoDup_Permutation_bis.
    + apply seq_NoDup.
    + rewrite seq_length. lia.
    + intros i Hi. apply mem_In. auto.
  - intros H. split; [apply is_perm_length; assumption|].
    intros i Hi. apply mem_In. apply (is_perm_In i H). apply in_seq in Hi. lia.
Qed.

(** [unperm p vals]: the list v of length |p| with v[p[k]] = vals[k]
    (python: [v = [None]*n; for k, i in enumerate(p): v[i] = vals[k]]). *)
Definition unperm {A} (d : A) (p : list nat) (vals : list A) : list A :=
  map (fun i => nth (nindex i p) vals d) (seq 0 (length p)).

Lemma unperm_length A (d : A) p vals : length (unperm d p vals) = length p.
Proof. unfold unperm. rewrite map_length, seq_length. reflexivity. Qed.

Lemma nth_unperm A (d e : A) p vals i :
  i < length p -> nth i (unperm d p vals) e = nth (nindex i p) vals d.
Proof.
  intros Hi. unfold unperm.
  rewrite (nth_indep _ e (nth (nindex 0 p) vals d)) by (rewrite map_length, seq_length; lia).
  rewrite (map_nth (fun i => nth (nindex i p) vals d) (seq 0 (length p)) 0 i).
  rewrite seq_nth by lia. reflexivity.
Qed.

Lemma unperm_gather A (d e : A) p l :
  is_perm (length l) p -> unperm d p (gather e l p) = l.
Proof.
  intros Hp. apply (nth_ext _ _ d d).
  - rewrite unperm_length. apply is_perm_length; assumption.
  - intros i Hi. rewrite unperm_length in Hi.
    rewrite nth_unperm by lia.
    assert (In i p) as Hin by (apply (is_perm_In i Hp); rewrite <- (is_perm_length Hp); lia).
    rewrite nth_gather by (apply index_of_lt; exact Hin).
    rewrite nth_index_of by exact Hin. apply nth_indep. rewrite <- (is_perm_length Hp). lia.
Qed.

Lemma gather_unperm A (d e : A) p vals :
  is_perm (length vals) p -> gather e (unperm d p vals) p = vals.
Proof.
  intros Hp. apply (nth_ext _ _ d d).
  - rewrite gather_length. apply is_perm_length; assumption.
  - intros k Hk. rewrite gather_length in Hk.
    rewrite nth_gather by lia.
    assert (nth k p 0 < length vals) as Hb
      by (apply (is_perm_In _ Hp); apply nth_In; lia).
    rewrite nth_unperm by (rewrite (is_perm_length Hp); exact Hb).
    rewrite index_of_nth; [reflexivity| apply (is_perm_NoDup Hp) | lia].
Qed.

Lemma map_unperm A B (f : A -> B) (d : A) e p vals :
  is_perm (length vals) p -> map f (unperm d p vals) = unperm e p (map f vals).
Proof.
  intros Hp. unfold unperm. rewrite map_map. apply map_ext_in. intros i Hi.
  apply in_seq in Hi.
  assert (In i p) as Hin by (apply (is_perm_In i Hp); rewrite <- (is_perm_length Hp); lia).
  pose proof (index_of_lt Nat.eq_dec i p Hin) as Hlt. rewrite (is_perm_length Hp) in Hlt.
  rewrite (nth_indep _ e (f d)) by (rewrite map_length; exact Hlt).
  symmetry. apply map_nth.
Qed.

Lemma NoDup_map_in A B (f : A -> B) l :
  (forall a b, In a l -> In b l -> f a = f b -> a = b) -> NoDup l -> NoDup (map f l).
Proof.
  induction l as [|x r IH]; simpl; intros Hf HN; constructor; inversion HN as [|? ? Hx Hr]; subst.
  - rewrite in_map_iff. intros [y [E Hy]]. apply Hx. rewrite <- (Hf y x); auto.
  - apply IH; auto.
Qed.

(** inverse permutation *)
Definition inv_perm (p : list nat) : list nat := unperm 0 p (seq 0 (length p)).

Lemma inv_perm_spec p : inv_perm p = map (fun i => nindex i p) (seq 0 (length p)) \/ ~ is_perm (length p) p.
Proof.
  destruct (is_permb (length p) p) eqn:E.
  - left. apply is_permb_spec in E. unfold inv_perm, unperm. apply map_ext_in. intros i Hi.
    apply in_seq in Hi. rewrite seq_nth; [reflexivity|].
    apply index_of_lt. apply (is_perm_In i E). lia.
  - right. intros H. apply is_permb_spec in H. congruence.
Qed.

Lemma is_perm_inv n p : is_perm n p -> is_perm n (inv_perm p).
Proof.
  intros Hp. pose proof (is_perm_length Hp) as Hl.
  destruct (inv_perm_spec p) as [E|E]; [|exfalso; apply E; rewrite Hl; exact Hp].
  rewrite E. apply is_perm_intro.
  - rewrite map_length, seq_length. exact Hl.
  - apply NoDup_map_in; [|apply seq_NoDup].
    intros a b Ha Hb Hab. apply in_seq in Ha, Hb.
    rewrite <- (nth_index_of Nat.eq_dec a p 0), <- (nth_index_of Nat.eq_dec b p 0), Hab; auto;
      apply (is_perm_In _ Hp); lia.
  - intros i Hi. apply in_map_iff in Hi. destruct Hi as [j [<- Hj]]. apply in_seq in Hj.
    rewrite <- Hl. apply index_of_lt. apply (is_perm_In _ Hp). lia.
Qed.

Lemma unperm_inv A (d e : A) p vals :
  is_perm (length vals) p -> unperm d p vals = gather e vals (inv_perm p).
Proof.
  intros Hp. pose proof (is_perm_length Hp) as Hl.
  destruct (inv_perm_spec p) as [E|E]; [|exfalso; apply E; rewrite Hl; exact Hp].
  rewrite E. unfold gather, unperm. rewrite map_map. apply map_ext_in. intros i Hi.
  apply in_seq in Hi. apply nth_indep. rewrite <- Hl. apply index_of_lt. apply (is_perm_In _ Hp). lia.
Qed.

Lemma NoDup_app_iff A (l1 l2 : list A) :
  NoDup (l1 ++ l2) <-> NoDup l1 /\ NoDup l2 /\ (forall x, In x l1 -> ~ In x l2).
Proof.
  induction l1 as [|x r IH]; simpl.
  - split; [intros H; repeat split; [constructor|assumption|tauto] | intros [_ [H _]]; exact H].
  - split.
    + intros H. inversion H as [|? ? Hx Hr]; subst. apply IH in Hr. destruct Hr as [H1 [H2 H3]].
      rewrite in_app_iff in Hx. repeat split; auto.
      * constructor; tauto.
      * intros y [->|Hy]; [tauto| auto].
    + intros [H1 [H2 H3]]. inversion H1; subst. constructor.
      * rewrite in_app_iff. intros [K|K]; [tauto|]. apply (H3 x); auto.
      * apply IH. repeat split; auto.
Qed.

(** positions of [seq 0 n] not in [axes], in increasing order *)
Definition free_axes (n : nat) (axes : list nat) : list nat :=
  filter (fun i => negb (mem i axes)) (seq 0 n).

Lemma In_free_axes n axes i : In i (free_axes n axes) <-> i < n /\ ~ In i axes.
Proof.
  unfold free_axes. rewrite filter_In, in_seq, negb_true_iff, mem_nIn.
  split; intros [H1 H2]; (split; [lia | exact H2]).
Qed.

Lemma NoDup_free_axes n axes : NoDup (free_axes n axes).
Proof. apply NoDup_filter. apply seq_NoDup. Qed.

Lemma free_axes_perm n axes :
  NoDup axes -> (forall i, In i axes -> i < n) -> is_perm n (free_axes n axes ++ axes).
Proof.
  intros HN Hb. unfold is_perm. apply NoDup_Permutation.
  - apply NoDup_app_iff. repeat split; auto using NoDup_free_axes.
    intros x Hx. apply In_free_axes in Hx. tauto.
  - apply seq_NoDup.
  - intros i. rewrite in_app_iff, In_free_axes, in_seq. split.
    + intros [H|H]; [lia|]. specialize (Hb i H). lia.
    + intros H. destruct (in_dec Nat.eq_dec i axes); [right; assumption|left; split; [lia|assumption]].
Qed.

Lemma free_axes_perm' n axes :
  NoDup axes -> (forall i, In i axes -> i < n) -> is_perm n (axes ++ free_axes n axes).
Proof.
  intros HN Hb. unfold is_perm. rewrite Permutation_app_comm. apply free_axes_perm; assumption.
Qed.

Lemma free_axes_length n axes :
  NoDup axes -> (forall i, In i axes -> i < n) -> length (free_axes n axes) + length axes = n.
Proof.
  intros HN Hb. pose proof (free_axes_perm HN Hb) as H. apply is_perm_length in H.
  rewrite app_length in H. exact H.
Qed.

(** ** Products of naturals *)
Definition nprod (l : list nat) : nat := fold_right Nat.mul 1 l.

Lemma nprod_app l1 l2 : nprod (l1 ++ l2) = nprod l1 * nprod l2.
Proof. induction l1 as [|x r IH]; simpl; [lia|]. rewrite IH. lia. Qed.

Lemma nprod_perm l1 l2 : Permutation l1 l2 -> nprod l1 = nprod l2.
Proof. induction 1; simpl; try lia. Qed.

(** ** Updates of total maps *)
Definition upd {A B} (eqd : forall x y : A, {x = y} + {x <> y}) (f : A -> B) (k : A) (v : B) : A -> B :=
  fun x => if eqd x k then v else f x.

Lemma upd_same A B eqd (f : A -> B) k v : upd eqd f k v k = v.
Proof. unfold upd. destruct (eqd k k); congruence. Qed.

Lemma upd_other A B eqd (f : A -> B) k v x : x <> k -> upd eqd f k v x = f x.
Proof. unfold upd. destruct (eqd x k); congruence. Qed.

Lemma Permutation_filter_partition A (f : A -> bool) l :
  Permutation l (filter f l ++ filter (fun x => negb (f x)) l).
Proof.
  induction l as [|x r IH]; simpl; [constructor|].
  destruct (f x); simpl.
  - constructor. exact IH.
  - rewrite IH at 1. apply Permutation_middle.
Qed.
