(** * PathSolveAdj: the adjacency matrices of the solvers represent the groups *)
From Coq Require Import Permutation.
From Verif Require Import Prelude Res PathSolve PathSolveSpec.
Set Implicit Arguments.
Unset Strict Implicit.

Section Adj.
  Context {L : lsf}.
  Implicit Types (a b c : L).

  (** ** the ordered group *)
  Lemma lplus_0l a : lplus l0 a = a.
  Proof. rewrite lplus_c. apply lplus_0. Qed.
  Lemma lplus_swap a b c : lplus a (lplus b c) = lplus b (lplus a c).
  Proof. rewrite !lplus_a, (lplus_c a b). reflexivity. Qed.
  Lemma lplus_cancel a b : lplus (lplus a b) (lopp b) = a.
  Proof. rewrite <- lplus_a, lopp_r. apply lplus_0. Qed.
  Lemma lplus_inj a b c : lplus a c = lplus b c -> a = b.
  Proof. intros H. rewrite <- (lplus_cancel a c), <- (lplus_cancel b c), H. reflexivity. Qed.
  Lemma lsub_eq a b c : a = lplus c b -> lsub a b = c.
  Proof. intros ->. apply lplus_cancel. Qed.
  Lemma lsub_plus a b : lplus (lsub a b) b = a.
  Proof. unfold lsub. rewrite <- lplus_a, (lplus_c (lopp b)), lopp_r. apply lplus_0. Qed.
  Lemma lle_plus2 a b c d : lle a b = true -> lle c d = true -> lle (lplus a c) (lplus b d) = true.
  Proof.
    intros H1 H2. eapply lle_trans; [apply lle_plus, H1|]. rewrite (lplus_c b c), (lplus_c b d). apply lle_plus, H2.
  Qed.
  Lemma lle_plus_iff a b c : lle (lplus a c) (lplus b c) = lle a b.
  Proof.
    destruct (lle a b) eqn:E; [apply lle_plus, E|]. destruct (lle (lplus a c) (lplus b c)) eqn:F; [|reflexivity].
    apply (lle_plus (lopp c)) in F. rewrite !lplus_cancel in F. congruence.
  Qed.
  Lemma llt_le a b : llt a b = true -> lle a b = true.
  Proof. unfold llt. rewrite Bool.negb_true_iff. apply lle_tot. Qed.
  Lemma llt_ne a b : llt a b = true -> a <> b.
  Proof. unfold llt. rewrite Bool.negb_true_iff. intros H ->. rewrite lle_refl in H. discriminate. Qed.
  Lemma llt_of a b : lle a b = true -> a <> b -> llt a b = true.
  Proof. unfold llt. intros H N. rewrite Bool.negb_true_iff. destruct (lle b a) eqn:E; [|reflexivity]. exfalso. apply N, lle_anti; assumption. Qed.
  Lemma llt_nle a b : llt a b = false <-> lle b a = true.
  Proof. unfold llt. rewrite Bool.negb_false_iff. reflexivity. Qed.
  Lemma llt_le_trans a b c : llt a b = true -> lle b c = true -> llt a c = true.
  Proof.
    intros H1 H2. apply llt_of; [eapply lle_trans; [apply llt_le, H1 | exact H2]|]. intros ->. apply llt_ne in H1 as Q. apply llt_le in H1. apply Q, lle_anti; assumption.
  Qed.
  Lemma lle_lt_trans a b c : lle a b = true -> llt b c = true -> llt a c = true.
  Proof.
    intros H1 H2. apply llt_of; [eapply lle_trans; [exact H1 | apply llt_le, H2]|]. intros ->. apply llt_ne in H2 as Q. apply llt_le in H2. apply Q, lle_anti; assumption.
  Qed.
  Lemma llt_irrefl a : llt a a = false.
  Proof. apply llt_nle, lle_refl. Qed.

  Lemma lsum_app (l m : list L) : lsum (l ++ m) = lplus (lsum l) (lsum m).
  Proof. induction l as [|x l IH]; cbn [app lsum fold_right]; [symmetry; apply lplus_0l|]. fold (lsum (l ++ m)) (lsum l). rewrite IH. apply lplus_a. Qed.
  Lemma lsum_perm (l m : list L) : Permutation l m -> lsum l = lsum m.
  Proof. induction 1; cbn [lsum fold_right]; unfold lsum in *; [reflexivity | congruence | apply lplus_swap | congruence]. Qed.
  Lemma lsum_plus A (f g : A -> L) (l : list A) : lsum (map (fun x => lplus (f x) (g x)) l) = lplus (lsum (map f l)) (lsum (map g l)).
  Proof.
    induction l as [|x l IH]; cbn [map lsum fold_right]; [symmetry; apply lplus_0|]. fold (lsum (map (fun x => lplus (f x) (g x)) l)) (lsum (map f l)) (lsum (map g l)). rewrite IH.
    rewrite <- !lplus_a. f_equal. rewrite lplus_swap. reflexivity.
  Qed.
  Lemma lsum_zero A (l : list A) : lsum (map (fun _ => @l0 L) l) = l0.
  Proof. induction l as [|x l IH]; [reflexivity|]. cbn. fold (lsum (map (fun _ : A => @l0 L) l)). rewrite IH. apply lplus_0. Qed.
  Lemma lsum_ext A (f g : A -> L) (l : list A) : (forall x, In x l -> f x = g x) -> lsum (map f l) = lsum (map g l).
  Proof. intros H. f_equal. apply map_ext_in, H. Qed.
  Lemma lsum_swap A B (f : A -> B -> L) (l : list A) (m : list B) :
    lsum (map (fun x => lsum (map (f x) m)) l) = lsum (map (fun y => lsum (map (fun x => f x y) l)) m).
  Proof.
    induction l as [|x l IH]; cbn [map].
    - cbn. symmetry. apply lsum_zero.
    - cbn [lsum fold_right]. fold (lsum (map (fun x => lsum (map (f x) m)) l)). rewrite IH. rewrite <- lsum_plus. apply lsum_ext. intros y _. reflexivity.
  Qed.
  Lemma lsum_nonneg (l : list L) : (forall x, In x l -> lle l0 x = true) -> lle l0 (lsum l) = true.
  Proof.
    induction l as [|x l IH]; intros H; [apply lle_refl|]. cbn. fold (lsum l). rewrite <- (lplus_0 l0). apply lle_plus2; [apply H; left; reflexivity | apply IH; intros y Hy; apply H; right; exact Hy].
  Qed.
  Lemma lsum_ge (l : list L) x : (forall x, In x l -> lle l0 x = true) -> In x l -> lle x (lsum l) = true.
  Proof.
    induction l as [|y l IH]; intros H Hin; [destruct Hin|]. cbn. fold (lsum l). destruct Hin as [Hin|Hin].
    - subst y. rewrite <- (lplus_0 x) at 1. rewrite (lplus_c x l0), (lplus_c x (lsum l)). apply lle_plus, lsum_nonneg. intros z Hz. apply H. right. exact Hz.
    - rewrite <- (lplus_0l x). apply lle_plus2; [apply H; left; reflexivity | apply IH; [intros z Hz; apply H; right; exact Hz | assumption]].
  Qed.
  Lemma lsum_flat A B (f : A -> list B) (g : B -> L) (l : list A) : lsum (map g (flat_map f l)) = lsum (map (fun x => lsum (map g (f x))) l).
  Proof. induction l as [|x l IH]; [reflexivity|]. cbn [flat_map map]. rewrite map_app, lsum_app, IH. reflexivity. Qed.

  (** ** matrices *)
  Lemma get_build n (f : nat -> nat -> L) x y : x < n -> y < n -> get (build n f) x y = f x y.
  Proof.
    intros Hx Hy. unfold get, build. rewrite nth_indep with (d' := map (f 0) (seq 0 n)) by (rewrite map_length, seq_length; exact Hx).
    rewrite (map_nth (fun x => map (f x) (seq 0 n))). rewrite seq_nth by exact Hx. cbn [plus].
    rewrite nth_indep with (d' := f x 0) by (rewrite map_length, seq_length; exact Hy). rewrite (map_nth (f x)). rewrite seq_nth by exact Hy. reflexivity.
  Qed.
  Lemma build_length n (f : nat -> nat -> L) : length (build n f) = n.
  Proof. unfold build. rewrite map_length, seq_length. reflexivity. Qed.

  Lemma skip_ne i x : skip i x <> i.
  Proof. unfold skip. destruct (x <? i) eqn:E; [apply Nat.ltb_lt in E | apply Nat.ltb_ge in E]; lia. Qed.
  Lemma skip_lt i x k : i < k -> x < k - 1 -> skip i x < k.
  Proof. unfold skip. destruct (x <? i) eqn:E; [apply Nat.ltb_lt in E | apply Nat.ltb_ge in E]; lia. Qed.
  Lemma skip_inj i x y : skip i x = skip i y -> x = y.
  Proof. unfold skip. destruct (Nat.ltb_spec x i), (Nat.ltb_spec y i); lia. Qed.
  Lemma skip_onto i y k : y <> i -> i < k -> y < k -> exists x, x < k - 1 /\ skip i x = y.
  Proof.
    intros H1 H2 H3. destruct (Nat.lt_ge_cases y i) as [Q|Q]; [exists y | exists (y - 1)]; unfold skip; (split; [lia|]).
    - apply Nat.ltb_lt in Q. rewrite Q. reflexivity.
    - destruct (y - 1 <? i) eqn:E; [apply Nat.ltb_lt in E; lia | lia].
  Qed.
  Lemma skip_below i x : x < i -> skip i x = x.
  Proof. intros H. unfold skip. apply Nat.ltb_lt in H. rewrite H. reflexivity. Qed.
  Lemma remove_seq i m s : s <= i < s + m -> remove Nat.eq_dec i (seq s m) = map (fun x => s + skip (i - s) x) (seq 0 (m - 1)).
  Proof.
    revert s. induction m as [|m IH]; intros s H; [lia|]. cbn [seq remove]. replace (S m - 1) with m by lia. destruct (Nat.eq_dec i s) as [->|N].
    - rewrite notin_remove by (rewrite in_seq; lia). rewrite <- seq_shift. rewrite <- (Nat.add_0_r s) at 1. 
      replace (seq (s + 0) m) with (map (fun x => s + x) (seq 0 m)).
      + rewrite map_map. apply map_ext_in. intros x _. unfold skip. replace (s - s) with 0 by lia. cbn. lia.
      + clear. rewrite Nat.add_0_r. revert s. induction m as [|m IH]; intros s; [reflexivity|]. cbn [seq map]. f_equal; [lia|]. rewrite <- (IH (S s)), <- seq_shift, map_map. apply map_ext. intros; lia.
    - rewrite IH by lia. destruct m as [|m]; [lia|]. replace (S m - 1) with m by lia. cbn [seq map]. f_equal; [unfold skip; destruct (0 <? i - s) eqn:E; [lia|apply Nat.ltb_ge in E; lia]|].
      rewrite <- (seq_shift m 0), map_map. apply map_ext. intros x. replace (i - s) with (S (i - S s)) by lia. unfold skip. change (S x <? S (i - S s)) with (x <? i - S s). destruct (x <? i - S s); lia.
  Qed.
  Lemma remove_seq0 i m : i < m -> remove Nat.eq_dec i (seq 0 m) = map (skip i) (seq 0 (m - 1)).
  Proof. intros H. rewrite remove_seq by lia. apply map_ext. intros x. rewrite Nat.sub_0_r. reflexivity. Qed.

End Adj.

(** ** representation *)
Section Rep.
  Context {L : lsf}.
  Variable w : nat -> nat -> L.
  Variable n : nat.
  Hypothesis w_sym : forall x y, x < n -> y < n -> w x y = w y x.
  Notation groups := (list (list nat)).
  Definition grp (gs : groups) x := nth x gs [].
  Definition partition (gs : groups) : Prop := Permutation (concat gs) (seq 0 n).
  Definition opens (g : list nat) : L := lsum (map (fun x => w x x) g).
  Record rep (gs : groups) (adj : list (list L)) : Prop := {
    rep_len : length adj = length gs;
    rep_off : forall a b, a < length gs -> b < length gs -> a <> b -> get adj a b = shared w (grp gs a) (grp gs b);
    rep_diag : forall a, a < length gs -> get adj a a = opens (grp gs a)
  }.
  Lemma in_part gs a x : partition gs -> In x (grp gs a) -> x < n.
  Proof.
    intros P H. destruct (Nat.lt_ge_cases a (length gs)) as [Q|Q].
    - assert (In x (concat gs)) as I by (apply in_concat; exists (grp gs a); split; [apply nth_In, Q | exact H]). apply (Permutation_in _ P) in I. apply in_seq in I. lia.
    - unfold grp in H. rewrite nth_overflow in H by exact Q. destruct H.
  Qed.
  Lemma shared_sym g h : (forall x, In x g -> x < n) -> (forall x, In x h -> x < n) -> shared w g h = shared w h g.
  Proof.
    intros Hg Hh. unfold shared. rewrite lsum_swap. apply lsum_ext. intros y Hy. apply lsum_ext. intros x Hx. apply w_sym; auto.
  Qed.
  Lemma shared_app_l g g' h : shared w (g ++ g') h = lplus (shared w g h) (shared w g' h).
  Proof. unfold shared. rewrite map_app, lsum_app. reflexivity. Qed.
  Lemma shared_app_r g h h' : shared w g (h ++ h') = lplus (shared w g h) (shared w g h').
  Proof. unfold shared. rewrite <- lsum_plus. apply lsum_ext. intros x _. rewrite map_app, lsum_app. reflexivity. Qed.
  Lemma opens_app g h : opens (g ++ h) = lplus (opens g) (opens h).
  Proof. unfold opens. rewrite map_app, lsum_app. reflexivity. Qed.

  Lemma concat_split gs a : a < length gs -> Permutation (concat gs) (grp gs a ++ concat (map (grp gs) (remove Nat.eq_dec a (seq 0 (length gs))))).
  Proof.
    unfold grp. revert a. induction gs as [|g gs IH]; intros a Ha; [cbn in Ha; lia|].
    assert (forall l s, map (fun x => nth x (g :: gs) []) (map S (l : list nat)) = map (fun x => nth x gs []) l /\ s = (s : nat)) as R by (intros; rewrite map_map; split; reflexivity).
    assert (map (fun x => nth x gs []) (seq 0 (length gs)) = gs) as ID.
    { clear. induction gs as [|g gs IH]; [reflexivity|]. cbn [length seq map]. f_equal. rewrite <- seq_shift, map_map. exact IH. }
    rewrite (remove_seq0 Ha). cbn [length] in *. rewrite Nat.sub_succ, Nat.sub_0_r. destruct a as [|a].
    - cbn [nth concat]. apply Permutation_app_head. replace (map (skip 0) (seq 0 (length gs))) with (map S (seq 0 (length gs))) by (apply map_ext; reflexivity).
      rewrite (proj1 (R _ 0)), ID. reflexivity.
    - assert (a < length gs) as Ha' by lia. destruct (length gs) as [|m] eqn:El; [lia|]. cbn [seq map]. change (skip (S a) 0) with 0. cbn [nth concat].
      rewrite (IH a) by lia. rewrite (remove_seq0 (i := a) (m := S m)) by lia. cbn [nth].
      rewrite Nat.sub_succ, Nat.sub_0_r. rewrite <- (seq_shift m 0), !map_map.
      rewrite (map_ext (fun x => nth (skip (S a) (S x)) (g :: gs) []) (fun x => nth (skip a x) gs [])) by (intros x; unfold skip; change (S x <? S a) with (x <? a); destruct (x <? a); reflexivity).
      rewrite <- Permutation_app_swap_app. reflexivity.
  Qed.

  Lemma outside gs a : partition gs -> a < length gs ->
    Permutation (filter (fun y => negb (mem y (grp gs a))) (seq 0 n)) (concat (map (grp gs) (remove Nat.eq_dec a (seq 0 (length gs))))).
  Proof.
    intros P Ha. pose proof (concat_split Ha) as C. set (O := concat (map _ _)) in *. assert (NoDup (grp gs a ++ O)) as ND.
    { apply (Permutation_NoDup C). apply (Permutation_NoDup (Permutation_sym P)). apply seq_NoDup. }
    assert (forall y, In y (grp gs a) -> ~ In y O) as D.
    { intros y Hy Ho. revert ND Hy Ho. generalize (grp gs a) as g. intros g ND Hy Ho. induction g as [|z g IH]; [destruct Hy|]. inversion ND as [|? ? N1 N2]; subst. destruct Hy as [->|Hy]; [apply N1, in_or_app; right; exact Ho | exact (IH N2 Hy)]. }
    apply NoDup_Permutation.
    - apply NoDup_filter, seq_NoDup.
    - clear - ND. revert ND. generalize (grp gs a). intros g. induction g as [|z g IH]; [trivial|]. intros ND. inversion ND; subst. auto.
    - intros y. rewrite filter_In, Bool.negb_true_iff, mem_nIn. split.
      + intros [Hy N]. apply (Permutation_in _ (Permutation_sym P)) in Hy. apply (Permutation_in _ C) in Hy. apply in_app_or in Hy. destruct Hy as [Hy|Hy]; [contradiction | exact Hy].
      + intros Hy. split; [apply (Permutation_in _ P), (Permutation_in _ (Permutation_sym C)), in_or_app; right; exact Hy | intros Q; exact (D y Q Hy)].
  Qed.

  Lemma dim_legs gs adj a : partition gs -> rep gs adj -> a < length gs -> dim_of adj a = legs w n (grp gs a).
  Proof.
    intros P R Ha. unfold dim_of, legs. rewrite (rep_len R).
    assert (Permutation (seq 0 (length gs)) (a :: remove Nat.eq_dec a (seq 0 (length gs)))) as S1.
    { apply NoDup_Permutation; [apply seq_NoDup | constructor; [apply remove_In|] |].
      - rewrite (remove_seq0 Ha). apply FinFun.Injective_map_NoDup; [intros x y; apply skip_inj | apply seq_NoDup].
      - intros x. split; [intros Hx; destruct (Nat.eq_dec x a) as [->|N]; [left; reflexivity | right; apply in_in_remove; assumption] | intros [<-|Hx]; [apply in_seq; lia | apply in_remove in Hx; apply Hx]]. }
    rewrite (lsum_perm (Permutation_map (fun b => get adj b a) S1)). cbn [map lsum fold_right]. rewrite (rep_diag R Ha). f_equal.
    fold (lsum (map (fun b => get adj b a) (remove Nat.eq_dec a (seq 0 (length gs))))).
    rewrite (lsum_ext (g := fun b => shared w (grp gs a) (grp gs b))).
    - unfold shared. rewrite lsum_swap. apply lsum_ext. intros x Hx. rewrite (lsum_perm (Permutation_map (w x) (outside P Ha))). rewrite <- flat_map_concat_map. rewrite lsum_flat. reflexivity.
    - intros b Hb. apply in_remove in Hb as [Hb N]. apply in_seq in Hb. rewrite (rep_off R) by (lia || auto). apply shared_sym; intros x; apply in_part; assumption.
  Qed.

  Lemma single_pair gs adj a b : partition gs -> rep gs adj -> a < length gs -> b < length gs -> a <> b ->
    single_cost adj a b = pair_cost w n (grp gs a) (grp gs b).
  Proof. intros P R Ha Hb N. unfold single_cost, pair_cost. rewrite !(dim_legs P R), (rep_off R) by assumption. reflexivity. Qed.

  Lemma pair_cost_sym gs a b : partition gs -> pair_cost w n (grp gs a) (grp gs b) = pair_cost w n (grp gs b) (grp gs a).
  Proof. intros P. unfold pair_cost. rewrite lplus_c. f_equal. apply shared_sym; intros x; apply in_part; assumption. Qed.

  (** ** contracting a pair *)
  Lemma join_length gs j i : i < length gs -> length (join gs j i) = length gs - 1.
  Proof. intros H. unfold join. rewrite map_length, (remove_seq0 H), map_length, seq_length. reflexivity. Qed.
  Lemma join_nth gs j i x : i < length gs -> x < length gs - 1 ->
    grp (join gs j i) x = if skip i x =? j then grp gs j ++ grp gs i else grp gs (skip i x).
  Proof.
    intros Hi Hx. unfold join, grp. rewrite (remove_seq0 Hi), map_map.
    set (f := fun y => if skip i y =? j then nth j gs [] ++ nth i gs [] else nth (skip i y) gs []).
    rewrite nth_indep with (d' := f 0) by (rewrite map_length, seq_length; exact Hx). rewrite (map_nth f). rewrite seq_nth by exact Hx. reflexivity.
  Qed.
  Lemma join_partition gs j i : partition gs -> j < length gs -> i < length gs -> j <> i -> partition (join gs j i).
  Proof.
    intros P Hj Hi N. unfold partition in *. rewrite <- P. rewrite (concat_split Hi).
    assert (j' : exists x, x < length gs - 1 /\ skip i x = j) by (apply skip_onto; auto). destruct j' as (x & Hx & E).
    rewrite (concat_split (gs := join gs j i) (a := x)) by (rewrite join_length by exact Hi; exact Hx). rewrite (join_nth j Hi Hx), E, Nat.eqb_refl.
    rewrite (remove_seq0 Hi). assert (x < length (map (grp gs) (map (skip i) (seq 0 (length gs - 1))))) as Hx' by (rewrite !map_length, seq_length; exact Hx).
    rewrite (concat_split Hx'). rewrite !map_length, seq_length. rewrite join_length by exact Hi.
    assert (forall y, y < length gs - 1 -> grp (map (grp gs) (map (skip i) (seq 0 (length gs - 1)))) y = grp gs (skip i y)) as G.
    { intros y Hy. unfold grp at 1. rewrite map_map. rewrite nth_indep with (d' := grp gs (skip i 0)) by (rewrite map_length, seq_length; exact Hy).
      rewrite (map_nth (fun y => grp gs (skip i y))). rewrite seq_nth by exact Hy. reflexivity. }
    rewrite (G x Hx), E. rewrite <- app_assoc. rewrite Permutation_app_swap_app. apply Permutation_app_head. apply Permutation_app_head.
    rewrite (map_ext_in (grp (join gs j i)) (grp (map (grp gs) (map (skip i) (seq 0 (length gs - 1)))))); [reflexivity|].
    intros y Hy. apply in_remove in Hy as [Hy N']. apply in_seq in Hy. rewrite join_nth, G by (lia || exact Hi). destruct (skip i y =? j) eqn:Q; [|reflexivity].
    apply Nat.eqb_eq in Q. exfalso. apply N', (@skip_inj i). congruence.
  Qed.

  Lemma merge_rep gs adj j i : partition gs -> rep gs adj -> j < length gs -> i < length gs -> j <> i -> rep (join gs j i) (merge_adj adj j i).
  Proof.
    intros P R Hj Hi N. assert (forall a b, shared w (grp gs a) (grp gs b) = shared w (grp gs b) (grp gs a)) as SY by (intros a b; apply shared_sym; intros x; apply in_part; exact P).
    split.
    - unfold merge_adj. rewrite build_length, (join_length j Hi), (rep_len R). reflexivity.
    - intros a b Ha Hb NE. rewrite (join_length j Hi) in Ha, Hb. unfold merge_adj. rewrite get_build by (rewrite (rep_len R); assumption). rewrite !join_nth by assumption.
      pose proof (skip_lt Hi Ha) as La. pose proof (skip_lt Hi Hb) as Lb. pose proof (@skip_ne i a) as Na. pose proof (@skip_ne i b) as Nb.
      assert (skip i a <> skip i b) as NS by (intros Q; apply NE, (skip_inj Q)). set (x := skip i a) in *. set (y := skip i b) in *.
      destruct (Nat.eqb_spec x j) as [Ex|Ex]; destruct (Nat.eqb_spec y j) as [Ey|Ey].
      + congruence.
      + repeat match goal with |- context [?u =? ?v] => destruct (Nat.eqb_spec u v); try congruence end; cbn [andb]; rewrite !(rep_off R) by congruence; rewrite shared_app_l; reflexivity.
      + repeat match goal with |- context [?u =? ?v] => destruct (Nat.eqb_spec u v); try congruence end; cbn [andb]; rewrite !(rep_off R) by congruence; rewrite shared_app_r; reflexivity.
      + repeat match goal with |- context [?u =? ?v] => destruct (Nat.eqb_spec u v); try congruence end; cbn [andb]; rewrite (rep_off R) by congruence; reflexivity.
    - intros a Ha. rewrite (join_length j Hi) in Ha. unfold merge_adj. rewrite get_build by (rewrite (rep_len R); assumption). rewrite join_nth by assumption.
      pose proof (skip_lt Hi Ha) as La. pose proof (@skip_ne i a) as Na. set (x := skip i a) in *. destruct (x =? j) eqn:Ex.
      + rewrite !Nat.eqb_refl. assert (i =? j = false) as Eij by (apply Nat.eqb_neq; congruence). rewrite Eij. cbn [andb].
        rewrite !(rep_diag R), !(rep_off R) by congruence. rewrite (SY i j). rewrite opens_app. set (s := shared w (grp gs j) (grp gs i)).
        rewrite lplus_a. f_equal. rewrite <- lplus_a. unfold lsub. rewrite <- lplus_a. rewrite (lplus_c (lopp _)), lopp_r. apply lplus_0.
      + cbn [andb]. rewrite (rep_diag R) by assumption. reflexivity.
  Qed.

  Lemma singles_rep adj : length adj = n -> (forall x y, x < n -> y < n -> get adj x y = w x y) -> partition (singles n) /\ rep (singles n) adj.
  Proof.
    intros Hl Hw. unfold singles. assert (length (map (fun x => [x]) (seq 0 n)) = n) as El by (rewrite map_length, seq_length; reflexivity).
    assert (forall a, a < n -> grp (map (fun x => [x]) (seq 0 n)) a = [a]) as G.
    { intros a Ha. unfold grp. rewrite nth_indep with (d' := [0]) by (rewrite El; exact Ha). rewrite (map_nth (fun x => [x])). rewrite seq_nth by exact Ha. reflexivity. }
    split.
    - unfold partition. replace (concat (map (fun x => [x]) (seq 0 n))) with (seq 0 n); [reflexivity|]. generalize (seq 0 n). intros l. induction l as [|x l IH]; [reflexivity|]. cbn. f_equal. exact IH.
    - split; [congruence| |].
      + intros a b Ha Hb _. rewrite El in *. rewrite !G, Hw by assumption. unfold shared. cbn. rewrite !lplus_0. reflexivity.
      + intros a Ha. rewrite El in *. rewrite G, Hw by assumption. unfold opens. cbn. rewrite lplus_0. reflexivity.
  Qed.
End Rep.
