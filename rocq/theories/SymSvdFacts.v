From Coq Require Import Reals List Lia Lra ZArith Sorting.Sorted Permutation.
From Verif Require Import Prelude Res SvdTrunc SvdTruncFacts SymSvd.
Import ListNotations.
Set Implicit Arguments.
Unset Strict Implicit.
Local Open Scope R_scope.

(** ** lists *)
Lemma ssorted_app A (P : A -> A -> Prop) l l' : StronglySorted P l -> StronglySorted P l' ->
  (forall x y, In x l -> In y l' -> P x y) -> StronglySorted P (l ++ l').
Proof.
  induction 1 as [|x r Hr IH Hx]; cbn; intros H' H; [exact H'|].
  constructor; [apply IH; [exact H' | intros; apply H; [right|]; assumption]|].
  apply Forall_app. split; [exact Hx|]. apply Forall_forall. intros y Hy. apply H; [left; reflexivity | exact Hy].
Qed.
Lemma ssorted_app_inv A (P : A -> A -> Prop) l l' : StronglySorted P (l ++ l') ->
  StronglySorted P l /\ StronglySorted P l' /\ (forall x y, In x l -> In y l' -> P x y).
Proof.
  induction l as [|x r IH]; cbn; intros H; [repeat split; [constructor | exact H | intros; contradiction]|].
  inversion H as [|? ? Hr Hx]; subst. apply IH in Hr as (H1 & H2 & H3). apply Forall_app in Hx as [Hx Hx'].
  repeat split; [constructor; assumption | exact H2|]. intros a b [<-|Ha] Hb; [|apply H3; assumption].
  rewrite Forall_forall in Hx'. apply Hx'. exact Hb.
Qed.
Lemma ssorted_rev A (P : A -> A -> Prop) l : StronglySorted P l -> StronglySorted (fun x y => P y x) (rev l).
Proof.
  induction 1 as [|x r Hr IH Hx]; cbn; [constructor|]. apply ssorted_app; [exact IH | repeat constructor|].
  intros a b Ha [<-|[]]. rewrite Forall_forall in Hx. apply Hx. apply in_rev. exact Ha.
Qed.
Lemma ssorted_map A B (f : A -> B) (P : B -> B -> Prop) l : StronglySorted (fun x y => P (f x) (f y)) l -> StronglySorted P (map f l).
Proof.
  induction 1 as [|x r Hr IH Hx]; cbn; constructor; [exact IH|]. apply Forall_forall. intros y Hy. apply in_map_iff in Hy as (z & <- & Hz).
  rewrite Forall_forall in Hx. apply Hx. exact Hz.
Qed.
Lemma ssorted_filter A (P : A -> A -> Prop) f l : StronglySorted P l -> StronglySorted P (filter f l).
Proof.
  induction 1 as [|x r Hr IH Hx]; cbn; [constructor|]. destruct (f x); [|exact IH]. constructor; [exact IH|].
  apply Forall_forall. intros y Hy. apply filter_In in Hy as [Hy _]. rewrite Forall_forall in Hx. apply Hx. exact Hy.
Qed.
Lemma ssorted_impl A (P Q : A -> A -> Prop) l : (forall x y, P x y -> Q x y) -> StronglySorted P l -> StronglySorted Q l.
Proof. intros H. induction 1 as [|x r Hr IH Hx]; constructor; [exact IH|]. eapply Forall_impl; [intros; apply H; eassumption | exact Hx]. Qed.
Lemma Permutation_filter A (f : A -> bool) l l' : Permutation l l' -> Permutation (filter f l) (filter f l').
Proof.
  induction 1; cbn; [constructor | destruct (f x); [constructor|]; assumption | destruct (f x), (f y); try apply Permutation_refl; apply perm_swap | etransitivity; eassumption].
Qed.
(** the classes of a list, one after the other *)
Lemma classes_perm A (cls : A -> nat) l nc : (forall x, In x l -> (cls x < nc)%nat) ->
  Permutation (concat (map (fun n => filter (fun x => Nat.eqb (cls x) n) l) (seq 0 nc))) l.
Proof.
  intros H. assert (forall k, Permutation (concat (map (fun n => filter (fun x => Nat.eqb (cls x) n) l) (seq 0 k))) (filter (fun x => Nat.ltb (cls x) k) l)) as P.
  { induction k as [|k IH].
    - cbn. clear H. induction l as [|x r IH]; cbn; [constructor | exact IH].
    - rewrite seq_S, map_app, concat_app. cbn [map concat plus]. rewrite app_nil_r, IH. clear IH H.
      induction l as [|x r IH]; cbn [filter]; [constructor|].
      destruct (Nat.ltb_spec (cls x) k), (Nat.eqb_spec (cls x) k), (Nat.ltb_spec (cls x) (S k)); try lia; cbn [app].
      + constructor. exact IH.
      + rewrite <- Permutation_middle. constructor. exact IH.
      + exact IH. }
  rewrite P. clear P. induction l as [|x r IH]; cbn [filter]; [constructor|].
  assert (cls x < nc)%nat as Hx by (apply H; left; reflexivity). apply Nat.ltb_lt in Hx. rewrite Hx. constructor. apply IH. intros; apply H; right; assumption.
Qed.
Lemma filter_mod nc D n : (n < nc)%nat -> filter (fun i => Nat.eqb (i mod nc) n) (seq 0 (D * nc)) = map (fun j => j * nc + n)%nat (seq 0 D).
Proof.
  intros Hn. induction D as [|D IH]; [reflexivity|].
  rewrite Nat.mul_succ_l, seq_app, filter_app, IH, seq_S, map_app. f_equal. cbn [plus map].
  assert (seq (D * nc) nc = seq (D * nc) n ++ [D * nc + n]%nat ++ seq (D * nc + n + 1) (nc - S n)) as ->.
  { transitivity (seq (D * nc) (n + (1 + (nc - S n)))); [f_equal; lia|]. rewrite !seq_app. reflexivity. }
  rewrite !filter_app. cbn [filter].
  assert (forall a b, (a + b <= nc)%nat -> ~ (a <= n < a + b)%nat -> filter (fun i => Nat.eqb (i mod nc) n) (seq (D * nc + a) b) = []) as Z.
  { intros a b Hab Hna. rewrite (filter_ext_in _ (fun _ => false)).
    - induction (seq (D * nc + a) b) as [|x r IHr]; cbn; [reflexivity | exact IHr].
    - intros i Hi. apply in_seq in Hi. apply Nat.eqb_neq. intros E.
      assert (i mod nc = i - D * nc)%nat as E' by (symmetry; apply (Nat.mod_unique i nc D); lia). lia. }
  replace (D * nc)%nat with (D * nc + 0)%nat at 1 by lia. rewrite Z by lia. cbn [app].
  assert ((D * nc + n) mod nc = n)%nat as -> by (symmetry; apply (Nat.mod_unique _ nc D); lia). rewrite Nat.eqb_refl. cbn [app]. f_equal.
  replace (D * nc + n + 1)%nat with (D * nc + (n + 1))%nat by lia. rewrite Z by lia. reflexivity.
Qed.
Lemma length_flat_rows A (f : nat -> nat -> A) nc D : length (flat_map (fun j => map (f j) (seq 0 nc)) (seq 0 D)) = (D * nc)%nat.
Proof.
  rewrite <- (seq_length D 0) at 2. induction (seq 0 D) as [|x r IH]; cbn; [reflexivity|]. rewrite app_length, map_length, seq_length, IH. reflexivity.
Qed.
Lemma nth_flat_rows A (f : nat -> nat -> A) nc D i d : (i < D * nc)%nat ->
  nth i (flat_map (fun j => map (f j) (seq 0 nc)) (seq 0 D)) d = f (i / nc)%nat (i mod nc)%nat.
Proof.
  intros Hi. assert (nc <> 0)%nat as N by (intros ->; lia).
  induction D as [|D IH]; [lia|]. rewrite seq_S, flat_map_app. cbn [flat_map plus]. rewrite app_nil_r.
  assert (length (flat_map (fun j => map (f j) (seq 0 nc)) (seq 0 D)) = D * nc)%nat as L by apply length_flat_rows.
  destruct (Nat.lt_ge_cases i (D * nc)) as [H|H].
  - rewrite app_nth1 by lia. apply IH. exact H.
  - rewrite app_nth2 by lia. rewrite L, (nth_indep _ d (f D 0%nat)) by (rewrite map_length, seq_length; lia).
    rewrite (map_nth (f D)), seq_nth by lia. assert (i / nc = D)%nat as -> by (symmetry; apply (Nat.div_unique i nc D (i - D * nc)); lia).
    f_equal. rewrite (Nat.mod_eq i nc N). assert (i / nc = D)%nat as -> by (symmetry; apply (Nat.div_unique i nc D (i - D * nc)); lia). lia.
Qed.
Lemma Rleb_true x y : Rleb x y = true <-> x <= y.
Proof. unfold Rleb. destruct (Rle_dec x y); split; intros; try easy. Qed.
Lemma Rltb_true x y : Rltb x y = true <-> x < y.
Proof. unfold Rltb. destruct (Rlt_dec x y); split; intros; try easy. Qed.
Lemma rge_unique l l' : StronglySorted Rge l -> StronglySorted Rge l' -> Permutation l l' -> l = l'.
Proof. apply sorted_unique. intros x y H1 H2. apply Rge_antisym; assumption. Qed.

Lemma skipn_add A (l : list A) i j : skipn i (skipn j l) = skipn (i + j) l.
Proof. revert j. induction l as [|x r IH]; intros [|j]; rewrite ?Nat.add_0_r, ?skipn_nil; try reflexivity. replace (i + S j)%nat with (S (i + j)) by lia. cbn [skipn]. apply IH. Qed.

(** ** masks over the cumulated squares *)
Lemma rcumsum_length acc l : length (rcumsum acc l) = length l.
Proof. revert acc. induction l; cbn; intros; [reflexivity|]. rewrite IHl. reflexivity. Qed.
Lemma mask_shape e acc l : exists c, (c <= length l)%nat /\
  map (fun x => Rltb e x) (map sqrt (rcumsum acc (map (fun x => x * x) l))) = repeat false c ++ repeat true (length l - c).
Proof.
  revert acc. induction l as [|x r IH]; intros acc; cbn [map rcumsum length]; [exists 0%nat; split; [lia | reflexivity]|].
  destruct (Rltb e (sqrt (acc + x * x))) eqn:E.
  - exists 0%nat. split; [lia|]. cbn [repeat app Nat.sub]. f_equal. apply Rltb_true in E.
    enough (forall l acc', acc + x * x <= acc' -> map (fun x => Rltb e x) (map sqrt (rcumsum acc' (map (fun x => x * x) l))) = repeat true (length l)) as H by (apply H; lra).
    clear r IH. induction l as [|y r IH]; intros acc' H; cbn; [reflexivity|]. f_equal; [|apply IH; nra].
    apply Rltb_true. eapply Rlt_le_trans; [exact E|]. apply sqrt_le_1_alt. nra.
  - destruct (IH (acc + x * x)) as (c & Hc & ->). exists (S c). split; [lia|]. reflexivity.
Qed.
Lemma by_mask_split c (l : list nat) : (c <= length l)%nat ->
  by_mask false (repeat false c ++ repeat true (length l - c)) l = firstn c l /\
  by_mask true (repeat false c ++ repeat true (length l - c)) l = skipn c l.
Proof.
  unfold by_mask. revert c. induction l as [|x r IH]; intros c Hc; [destruct c; [split; reflexivity | cbn in Hc; lia]|].
  destruct c as [|c].
  - cbn [repeat app length Nat.sub combine filter fst Bool.eqb map snd firstn skipn].
    destruct (IH 0%nat) as [H1 H2]; [lia|]. cbn [repeat app] in H1, H2. rewrite Nat.sub_0_r in H1, H2. rewrite H1, H2. split; reflexivity.
  - cbn in Hc. cbn [repeat app length Nat.sub combine filter fst Bool.eqb map snd firstn skipn].
    destruct (IH c) as [H1 H2]; [lia|]. rewrite H1, H2. split; reflexivity.
Qed.
Lemma count_mask e l : count_gt e l = length (filter (fun b => b) (map (fun x => Rltb e x) l)).
Proof. unfold count_gt. induction l as [|x r IH]; cbn; [reflexivity|]. unfold Rltb at 1. destruct (Rlt_dec e x); cbn; lia. Qed.
Lemma count_shape c m : length (filter (fun b : bool => b) (repeat false c ++ repeat true m)) = m.
Proof. induction c; cbn; [|exact IHc]. induction m; cbn; [reflexivity|]. rewrite IHm. reflexivity. Qed.
Lemma firstn_stop A (l : list A) m : (0 < m < length l)%nat -> stop l (- Z.of_nat m) = (length l - m)%nat.
Proof. intros H. unfold stop. destruct (Z.ltb_spec (- Z.of_nat m) 0); lia. Qed.

Section Facts.
  Variable svs : list (list R).
  Notation nc := (length svs).
  Notation vals := (fun i => nth i (extended_flat svs) 0).
  Definition ext (n : nat) : list R := nth n svs [] ++ repeat 0 (max_D svs - length (nth n svs [])).
  Lemma ext_length n : (n < nc)%nat -> length (ext n) = max_D svs.
  Proof.
    intros Hn. unfold ext. rewrite app_length, repeat_length.
    assert (length (nth n svs []) <= max_D svs)%nat; [|lia]. unfold max_D, orig_block_size.
    assert (list_max (map (@length R) svs) <= list_max (map (@length R) svs))%nat as H by lia.
    apply list_max_le in H. rewrite Forall_forall in H. apply H. apply in_map. apply nth_In. exact Hn.
  Qed.
  Lemma flat_length : length (extended_flat svs) = (max_D svs * nc)%nat.
  Proof. unfold extended_flat. apply (@length_flat_rows R (extended svs) (ncols svs) (max_D svs)). Qed.
  Lemma vals_at i : (i < max_D svs * nc)%nat -> vals i = extended svs (i / nc) (i mod nc).
  Proof. intros Hi. unfold extended_flat. apply (@nth_flat_rows R (extended svs)). exact Hi. Qed.

  Lemma argsort_perm : Permutation (argsort svs) (seq 0 (max_D svs * nc)).
  Proof. unfold argsort. rewrite flat_length. apply sort_perm. Qed.
  Lemma argsort_length : length (argsort svs) = (max_D svs * nc)%nat.
  Proof. rewrite (Permutation_length argsort_perm). apply seq_length. Qed.
  Lemma argsort_lt i : In i (argsort svs) -> (i < max_D svs * nc)%nat.
  Proof. intros H. apply (Permutation_in _ argsort_perm), in_seq in H. lia. Qed.
  Lemma argsort_sorted : StronglySorted (fun i j => vals i <= vals j) (argsort svs).
  Proof.
    eapply ssorted_impl; [|apply sort_sorted].
    - intros x y H. cbv beta in H. apply Rleb_true in H. exact H.
    - intros x y. rewrite !Rleb_true. lra.
    - intros x y z. rewrite !Rleb_true. lra.
  Qed.
  Lemma values_vals inds n : incl inds (argsort svs) -> values svs inds n = rev (map vals (filter (fun i => Nat.eqb (i mod nc) n) inds)).
  Proof.
    intros H. unfold values. f_equal. apply map_ext_in. intros i Hi. apply filter_In in Hi as [Hi _].
    symmetry. apply vals_at, argsort_lt, H, Hi.
  Qed.

  Hypothesis sorted : Forall (StronglySorted Rge) svs.
  Hypothesis nonneg : Forall (Forall (Rle 0)) svs.
  Lemma nth_Forall A (P : A -> Prop) (l : list A) n d : Forall P l -> P d -> P (nth n l d).
  Proof. intros H Hd. revert n. induction H; destruct n; cbn; auto. Qed.
  Lemma zeros_sorted m : StronglySorted Rge (repeat 0 m).
  Proof. induction m; cbn; constructor; [exact IHm|]. apply Forall_forall. intros x Hx. apply repeat_spec in Hx. lra. Qed.
  Lemma zeros_after l m : StronglySorted Rge l -> Forall (Rle 0) l -> StronglySorted Rge (l ++ repeat 0 m).
  Proof.
    intros H H'. apply ssorted_app; [exact H | apply zeros_sorted|]. intros x y Hx Hy. apply repeat_spec in Hy. subst.
    rewrite Forall_forall in H'. apply Rle_ge, H', Hx.
  Qed.
  Lemma ext_sorted n : StronglySorted Rge (ext n).
  Proof. apply zeros_after; [apply nth_Forall; [exact sorted | constructor] | apply nth_Forall; [exact nonneg | constructor]]. Qed.

  Lemma values_argsort n : (n < nc)%nat -> values svs (argsort svs) n = ext n.
  Proof.
    intros Hn. apply rge_unique; [| apply ext_sorted |].
    - rewrite values_vals by apply incl_refl. eapply ssorted_impl; [|apply ssorted_rev, ssorted_map, ssorted_filter, argsort_sorted].
      intros x y H. cbv beta in H. lra.
    - rewrite values_vals by apply incl_refl. rewrite <- Permutation_rev.
      rewrite (Permutation_map _ (Permutation_filter _ argsort_perm)). rewrite filter_mod by exact Hn. rewrite map_map.
      match goal with |- Permutation ?a ?b => enough (a = b) as -> by reflexivity end.
      apply (nth_ext _ _ 0 0); [rewrite map_length, seq_length; symmetry; apply ext_length, Hn|].
      rewrite map_length, seq_length. intros j Hj.
      rewrite (nth_indep _ 0 (vals (0 * nc + n)%nat)) by (rewrite map_length, seq_length; exact Hj).
      rewrite (map_nth (fun x => vals (x * nc + n)%nat)), seq_nth by exact Hj. cbn [plus].
      rewrite vals_at by nia.
      assert ((j * nc + n) / nc = j)%nat as -> by (symmetry; apply (Nat.div_unique _ nc j n); lia).
      assert ((j * nc + n) mod nc = n)%nat as -> by (symmetry; apply (Nat.mod_unique _ nc j n); lia). reflexivity.
  Qed.

  Lemma values_split d k n : (n < nc)%nat -> d ++ k = argsort svs -> values svs k n ++ values svs d n = ext n.
  Proof.
    intros Hn E. rewrite <- (values_argsort Hn), <- E. unfold values. rewrite filter_app, map_app, rev_app_distr. reflexivity.
  Qed.
  Lemma values_all k : incl k (argsort svs) -> Permutation (concat (map (values svs k) (seq 0 nc))) (map vals k).
  Proof.
    intros H. rewrite (map_ext _ (fun n => rev (map vals (filter (fun i => Nat.eqb (i mod nc) n) k)))) by (intros; apply values_vals, H).
    assert (forall l : list nat, Permutation (concat (map (fun n => rev (map vals (filter (fun i => Nat.eqb (i mod nc) n) k))) l))
      (map vals (concat (map (fun n => filter (fun i => Nat.eqb (i mod nc) n) k) l)))) as E.
    { induction l as [|x r IH]; cbn [map concat]; [constructor|]. rewrite map_app, <- IH, <- Permutation_rev. reflexivity. }
    rewrite E. apply Permutation_map. apply classes_perm. intros x Hx. apply Nat.mod_upper_bound. apply H, argsort_lt in Hx. nia.
  Qed.

  (** *** the spectrum of all blocks together *)
  Definition all_values : list R := sort (fun x y => Rleb y x) (concat svs).
  Lemma all_sorted : StronglySorted Rge all_values.
  Proof.
    eapply ssorted_impl; [|apply sort_sorted].
    - intros x y H. cbv beta in H. apply Rleb_true in H. lra.
    - intros x y. rewrite !Rleb_true. lra.
    - intros x y z. rewrite !Rleb_true. lra.
  Qed.
  Lemma all_perm : Permutation all_values (concat svs).
  Proof. apply sort_perm. Qed.
  Lemma all_length : length all_values = orig_num_singvals svs.
  Proof.
    rewrite (Permutation_length all_perm). unfold orig_num_singvals, orig_block_size. clear.
    induction svs as [|x r IH]; cbn; [reflexivity|]. rewrite app_length, IH. reflexivity.
  Qed.
  Lemma all_nonneg : Forall (Rle 0) all_values.
  Proof.
    apply Forall_forall. intros x Hx. apply (Permutation_in _ all_perm) in Hx. apply in_concat in Hx as (l & Hl & Hx).
    pose proof (proj1 (Forall_forall _ _) (proj1 (Forall_forall _ _) nonneg l Hl)) as N. apply N. exact Hx.
  Qed.
  Definition desc : list R := rev (map vals (argsort svs)).
  Lemma desc_eq : exists P, desc = all_values ++ repeat 0 P.
  Proof.
    assert (forall l (f : list R -> nat), exists P, Permutation (concat (map (fun s => s ++ repeat 0 (f s)) l)) (concat l ++ repeat 0 P)) as H.
    { induction l as [|x r IH]; intros f; cbn [map concat]; [exists 0%nat; reflexivity|]. destruct (IH f) as [P HP]. exists (f x + P)%nat.
      rewrite HP, repeat_app, <- !app_assoc. apply Permutation_app_head. rewrite !app_assoc. apply Permutation_app_tail, Permutation_app_comm. }
    destruct (H svs (fun s => max_D svs - length s)%nat) as [P HP]. exists P.
    apply rge_unique; [| apply zeros_after; [apply all_sorted | apply all_nonneg] |].
    - unfold desc. eapply ssorted_impl; [|apply ssorted_rev, ssorted_map, argsort_sorted]. intros x y E. cbv beta in E. lra.
    - unfold desc. rewrite <- Permutation_rev, <- (@values_all (argsort svs)) by apply incl_refl.
      rewrite all_perm, <- HP. match goal with |- Permutation ?a ?b => enough (a = b) as -> by reflexivity end. f_equal.
      rewrite (map_ext_in _ ext) by (intros n Hn; apply in_seq in Hn; apply values_argsort; lia).
      apply (nth_ext _ _ (ext 0) (ext 0)); [rewrite !map_length, seq_length; reflexivity|].
      rewrite map_length, seq_length. intros n Hn. rewrite (map_nth ext), seq_nth by exact Hn. cbn [plus].
      rewrite (nth_indep (map _ svs) (ext 0) ((fun s => s ++ repeat 0 (max_D svs - length s)) [])) by (rewrite map_length; exact Hn).
      rewrite (map_nth (fun s => s ++ repeat 0 (max_D svs - length s))). reflexivity.
  Qed.

  Lemma norm_app_zeros l P : norm (l ++ repeat 0 P) = norm l.
  Proof.
    unfold norm. f_equal. rewrite fold_right_app. f_equal. induction P; cbn; [reflexivity|]. rewrite IHP. lra.
  Qed.
  Lemma count_zeros e l P : 0 <= e -> count_gt e (trunc_errs (l ++ repeat 0 P)) = count_gt e (trunc_errs l).
  Proof.
    intros He. rewrite !trunc_errs_suffixes, !count_gt_perm. rewrite app_length, repeat_length, seq_app, map_app.
    unfold count_gt. rewrite filter_app, app_length.
    rewrite (map_ext_in _ (fun k => norm (skipn k l))).
    - rewrite <- (Nat.add_0_r (length (filter _ (map (fun k => norm (skipn k l)) _)))) at 2. f_equal.
      cbn [plus]. assert (forall k, In k (seq (length l) P) -> (if Rlt_dec e (norm (skipn k (l ++ repeat 0 P))) then true else false) = false) as H.
      { intros k Hk. apply in_seq in Hk. destruct (Rlt_dec e _) as [H|]; [|reflexivity]. exfalso.
        rewrite skipn_app, skipn_all2 in H by lia. cbn [app] in H.
        assert (forall m j, skipn j (repeat 0 m) = repeat 0 (m - j)) as SR.
        { induction m; intros [|j]; cbn; try reflexivity. apply IHm. }
        rewrite SR, <- (app_nil_l (repeat 0 _)), norm_app_zeros, norm_nil in H. lra. }
      induction (seq (length l) P) as [|k r IH]; [reflexivity|]. cbn [map filter].
      rewrite (H k) by (left; reflexivity). apply IH. intros; apply H; right; assumption.
    - intros k Hk. apply in_seq in Hk. rewrite skipn_app. replace (k - length l)%nat with 0%nat by lia. cbn [skipn]. apply norm_app_zeros.
  Qed.

  (** *** the two steps cut the sorted indices at one place *)
  Definition cut (K : nat) : list nat * list nat :=
    (firstn (length (argsort svs) - K) (argsort svs), skipn (length (argsort svs) - K) (argsort svs)).
  Lemma cut_length K : (K <= length (argsort svs))%nat -> length (snd (cut K)) = K.
  Proof. intros H. cbn. rewrite skipn_length. lia. Qed.
  Lemma desc_length : length desc = length (argsort svs).
  Proof. unfold desc. rewrite rev_length, map_length. reflexivity. Qed.
  Lemma count_le e l : (count_gt e (trunc_errs l) <= length l)%nat.
  Proof.
    unfold count_gt. match goal with |- (length (filter ?f ?l) <= _)%nat => assert (length (filter f l) <= length l)%nat as H end.
    { generalize (trunc_errs l). clear. induction l as [|x r IH]; cbn; [lia|]. destruct (Rlt_dec e x); cbn; lia. }
    eapply Nat.le_trans; [exact H|]. unfold trunc_errs. rewrite map_length, rcumsum_length, map_length, rev_length. lia.
  Qed.
  Lemma err_step_cut e e' relative : abs_err svs e relative = Ok e' ->
    err_step svs (Some e) relative (argsort svs) = Ok (cut (count_gt e' (trunc_errs desc))).
  Proof.
    intros E. unfold err_step. rewrite E. cbn [rbind]. f_equal.
    unfold trunc_errs, desc. rewrite rev_involutive. rewrite count_mask.
    unfold mask. destruct (mask_shape e' 0 (map vals (argsort svs))) as (c & Hc & Hm). rewrite Hm.
    rewrite map_length in Hc |- *. rewrite count_shape. destruct (by_mask_split Hc) as [-> ->].
    unfold cut. replace (length (argsort svs) - (length (argsort svs) - c))%nat with c by lia. reflexivity.
  Qed.
  Lemma max_step_cut m K : (0 < m)%nat -> (m < orig_num_singvals svs)%nat -> (K <= length (argsort svs))%nat ->
    max_step svs (Some m) (cut K) = cut (Nat.min m K).
  Proof.
    intros Hm Ho HK. unfold max_step. destruct (Nat.ltb_spec (orig_num_singvals svs) m); [lia|]. rewrite cut_length by exact HK.
    destruct (Nat.ltb_spec m K) as [H1|H1]; [|rewrite Nat.min_r by lia; reflexivity].
    rewrite Nat.min_l by lia. unfold slice_to, slice_from. rewrite firstn_stop by (rewrite cut_length; lia). rewrite cut_length by exact HK.
    unfold cut at 1 2 3. cbn [fst snd]. unfold cut. f_equal.
    - replace (length (argsort svs) - m)%nat with ((length (argsort svs) - K) + (K - m))%nat by lia.
      set (a := argsort svs). generalize (K - m)%nat. intros j. generalize (length a - K)%nat. intros i. clear.
      revert i. induction a as [|x r IH]; intros [|i]; cbn [firstn skipn app plus]; try (destruct j; reflexivity). f_equal. apply IH.
    - rewrite skipn_add. f_equal. lia.
  Qed.

  (** *** the largest value *)
  Lemma first_max_spec m : Forall (fun s => s <> []) svs -> first_max svs = Ok m -> hd 0 all_values = m.
  Proof.
    intros Hne H. unfold first_max in H.
    assert (forall l hs, mapr (fun s : list R => match s with [] => Raise | x :: _ => Ok x end) l = Ok hs -> hs = map (hd 0) l /\ Forall (fun s => s <> []) l) as Hh.
    { induction l as [|s r IH]; cbn; intros hs E; [injection E as <-; split; [reflexivity | constructor]|].
      destruct s as [|x s]; [discriminate|]. cbn [rbind] in E. destruct (mapr _ r) as [ys| |]; cbn [rbind] in E; try discriminate.
      injection E as <-. destruct (IH ys eq_refl) as [-> H']. split; [reflexivity | constructor; [discriminate | exact H']]. }
    destruct (mapr _ svs) as [hs| |] eqn:E in H; cbn [rbind] in H; try discriminate.
    apply Hh in E as [-> _]. destruct svs as [|s0 r] eqn:Es; [discriminate|]. cbn [map] in H. injection H as <-.
    set (M := fold_left Rmax (map (hd 0) r) (hd 0 s0)).
    assert (forall l a, a <= fold_left Rmax l a /\ (forall x, In x l -> x <= fold_left Rmax l a) /\ (fold_left Rmax l a = a \/ In (fold_left Rmax l a) l)) as HM.
    { induction l as [|x l IH]; intros a; cbn [fold_left]; [repeat split; [lra | intros ? [] | left; reflexivity]|].
      destruct (IH (Rmax a x)) as (H1 & H2 & H3). pose proof (Rmax_l a x). pose proof (Rmax_r a x).
      repeat split; [lra | intros y [<-|Hy]; [lra | apply H2, Hy] |].
      destruct H3 as [H3|H3]; [|right; right; exact H3]. rewrite H3. unfold Rmax. destruct (Rle_dec a x); [right; left; reflexivity | left; reflexivity]. }
    destruct (HM (map (hd 0) r) (hd 0 s0)) as (H1 & H2 & H3). fold M in H1, H2, H3.
    assert (In M (concat svs)) as HI.
    { rewrite Es. cbn [concat]. apply in_or_app. inversion Hne as [|? ? N0 Nr]; subst. destruct H3 as [->|H3].
      - left. destruct s0; [congruence | left; reflexivity].
      - right. apply in_map_iff in H3 as (s & <- & Hs). apply in_concat. exists s. split; [exact Hs|].
        rewrite Forall_forall in Nr. specialize (Nr s Hs). destruct s; [congruence | left; reflexivity]. }
    assert (forall x, In x (concat svs) -> x <= M) as HU.
    { intros x Hx. apply in_concat in Hx as (s & Hs & Hx). assert (x <= hd 0 s) as L.
      { rewrite Es in Hs. pose proof (proj1 (Forall_forall _ _) sorted s Hs) as Ss. destruct s as [|y t]; [contradiction|].
        cbn [hd]. inversion Ss as [|? ? _ F]; subst. destruct Hx as [<-|Hx]; [lra|]. rewrite Forall_forall in F. apply Rge_le, F, Hx. }
      eapply Rle_trans; [exact L|]. rewrite Es in Hs. destruct Hs as [<-|Hs]; [exact H1|]. apply H2. apply in_map. exact Hs. }
    rewrite <- Es in *. pose proof all_perm as P. pose proof all_sorted as S.
    assert (In M all_values) as HI' by (apply (Permutation_in _ (Permutation_sym P)); exact HI).
    destruct all_values as [|a t]; [contradiction|]. cbn [hd].
    assert (a <= M) by (apply HU; apply (Permutation_in _ P); left; reflexivity).
    destruct HI' as [->|HI']; [reflexivity|]. inversion S as [|? ? _ F]; subst. rewrite Forall_forall in F. specialize (F M HI'). lra.
  Qed.
End Facts.
