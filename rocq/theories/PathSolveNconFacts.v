(** * PathSolveNconFacts: adjacency of labelled networks, and contraction orders as lists of labels *)
From Coq Require Import ZArith Permutation Sorted.
From Verif Require Import Prelude Res ListFacts Ncon PathSolve PathSolveSpec PathSolveAdj PathSolveGroups PathSolveLabels PathSolveNcon.
Set Implicit Arguments.
Unset Strict Implicit.

Lemma zuniq_in l e : In e (zuniq l) <-> In e l.
Proof. unfold zuniq. rewrite In_sort. apply nodup_In. Qed.
Lemma zuniq_nodup l : NoDup (zuniq l).
Proof. apply NoDup_sort, NoDup_nodup. Qed.
Lemma zuniq_sorted l : StronglySorted Z.le (zuniq l).
Proof.
  assert (StronglySorted (fun a b => Z.leb a b = true) (zuniq l)) as H by (apply sort_sorted; [intros x y; rewrite !Z.leb_le; lia | intros x y z; rewrite !Z.leb_le; lia]).
  induction H as [|x r _ IH F]; constructor; [exact IH|]. eapply Forall_impl; [|exact F]. cbn. intros a. apply Z.leb_le.
Qed.
Lemma zmem_in e l : zmem e l = true <-> In e l.
Proof. unfold zmem. rewrite existsb_exists. split; [intros (x & H & E); apply Z.eqb_eq in E; subst; exact H | intros H; exists e; split; [exact H | apply Z.eqb_refl]]. Qed.

Lemma NoDup_app_intro A (l m : list A) : NoDup l -> NoDup m -> (forall x, In x l -> In x m -> False) -> NoDup (l ++ m).
Proof. intros. apply NoDup_app_iff. repeat split; auto. Qed.

(** ** orders *)
Section Order.
  Variable labels : list (list Z).
  Notation n := (length labels).
  Hypothesis twice : forall e, occurs labels e <= 2.
  Notation lo := (labels_of labels).
  Notation cnt g e := (count_occ Z.eq_dec (lo g) e).

  Lemma cnt_app g h e : cnt (g ++ h) e = cnt g e + cnt h e.
  Proof. unfold labels_of. rewrite flat_map_app. apply count_occ_app. Qed.
  Lemma cnt_perm g h e : Permutation g h -> cnt g e = cnt h e.
  Proof. intros H. apply (Permutation_count_occ Z.eq_dec). unfold labels_of. apply Permutation_flat_map, H. Qed.
  Lemma cnt_all e : cnt (seq 0 n) e = occurs labels e.
  Proof.
    unfold occurs, labels_of. f_equal. rewrite flat_map_concat_map. f_equal. apply (@nth_ext _ _ _ [] []); [rewrite map_length, seq_length; reflexivity|].
    intros k H. rewrite map_length, seq_length in H. rewrite (nth_indep _ [] (nth 0 labels [])) by (rewrite map_length, seq_length; exact H). rewrite map_nth with (f := fun x => nth x labels []), seq_nth by exact H. reflexivity.
  Qed.
  Lemma cnt_part gs a b e : partition n gs -> a < length gs -> b < length gs -> a <> b -> cnt (grp gs a) e + cnt (grp gs b) e <= 2.
  Proof.
    intros P Ha Hb N. rewrite <- cnt_app. etransitivity; [|apply (twice e)]. rewrite <- cnt_all. rewrite <- (cnt_perm e P).
    rewrite (cnt_perm e (concat_split Ha)). rewrite !cnt_app. apply Nat.add_le_mono_l.
    assert (In b (remove Nat.eq_dec a (seq 0 (length gs)))) as Q by (apply in_in_remove; [congruence | apply in_seq; lia]).
    apply in_split in Q as (l1 & l2 & ->). rewrite map_app, concat_app. cbn [map concat]. rewrite !cnt_app. lia.
  Qed.
  Lemma cnt_one gs a e : partition n gs -> a < length gs -> cnt (grp gs a) e <= 2.
  Proof. intros P Ha. etransitivity; [|apply (twice e)]. rewrite <- cnt_all, <- (cnt_perm e P), (cnt_perm e (concat_split Ha)), cnt_app. lia. Qed.

  Lemma delete_in ks l e : In e (delete_at ks l) <-> exists k, k < length l /\ ~ In k ks /\ nth k l 0%Z = e.
  Proof.
    unfold delete_at. rewrite in_map_iff. split.
    - intros (k & E & H). apply filter_In in H as [H1 H2]. apply in_seq in H1. exists k. split; [lia|]. split; [|exact E]. intros H. apply Bool.negb_true_iff in H2. rewrite <- mem_In in H. congruence.
    - intros (k & H & N & E). exists k. split; [exact E|]. apply filter_In. split; [apply in_seq; lia|]. apply Bool.negb_true_iff. destruct (mem k ks) eqn:Q; [|reflexivity]. apply mem_In in Q. contradiction.
  Qed.
  Lemma delete_nodup ks l : NoDup l -> NoDup (delete_at ks l).
  Proof.
    intros H. unfold delete_at. assert (forall m, NoDup m -> (forall k, In k m -> k < length l) -> NoDup (map (fun k => nth k l 0%Z) m)) as Q.
    { induction m as [|k m IH]; intros Hm Hl; cbn [map]; [constructor|]. apply NoDup_cons_iff in Hm as [Hk Hm]. constructor.
      - rewrite in_map_iff. intros (j & E & Hj). apply (proj1 (NoDup_nth l 0%Z) H) in E; [subst; contradiction | apply Hl; right; exact Hj | apply Hl; left; reflexivity].
      - apply IH; [exact Hm|]. intros j Hj. apply Hl. right. exact Hj. }
    apply Q; [apply NoDup_filter, seq_NoDup|]. intros k Hk. apply filter_In in Hk as [Hk _]. apply in_seq in Hk. lia.
  Qed.
  Lemma common_in a b e : In e (common a b) <-> In e a /\ In e b.
  Proof. unfold common. rewrite zuniq_in, filter_In, zmem_in. reflexivity. Qed.
  Lemma delete_common a b e (c := common a b) : NoDup a -> (In e (delete_at (map (fun l => zindex l a) c) a) <-> In e a /\ ~ In e b).
  Proof.
    intros H. rewrite delete_in. split.
    - intros (k & Hk & N & E). assert (In e a) as Ha by (rewrite <- E; apply nth_In, Hk). split; [exact Ha|]. intros Hb. apply N. apply in_map_iff. exists e. split; [|apply common_in; split; assumption].
      rewrite <- E. apply index_of_nth; assumption.
    - intros [Ha Hb]. exists (zindex e a). split; [apply index_of_lt, Ha|]. split; [|apply nth_index_of, Ha]. rewrite in_map_iff. intros (e' & E & He'). apply common_in in He' as [He1 He2]. apply Hb.
      assert (e' = e) as <-; [|exact He2]. rewrite <- (nth_index_of Z.eq_dec e' a 0%Z He1), <- (nth_index_of Z.eq_dec e a 0%Z Ha). unfold zindex in E. rewrite E. reflexivity.
  Qed.
  Lemma delete_common_r a b e (c := common a b) : NoDup b -> (In e (delete_at (map (fun l => zindex l b) c) b) <-> In e b /\ ~ In e a).
  Proof.
    intros H. rewrite delete_in. split.
    - intros (k & Hk & N & E). assert (In e b) as Ha by (rewrite <- E; apply nth_In, Hk). split; [exact Ha|]. intros Hb. apply N. apply in_map_iff. exists e. split; [|apply common_in; split; assumption].
      rewrite <- E. apply index_of_nth; assumption.
    - intros [Ha Hb]. exists (zindex e b). split; [apply index_of_lt, Ha|]. split; [|apply nth_index_of, Ha]. rewrite in_map_iff. intros (e' & E & He'). apply common_in in He' as [He1 He2]. apply Hb.
      assert (e' = e) as <-; [|exact He1]. rewrite <- (nth_index_of Z.eq_dec e' b 0%Z He2), <- (nth_index_of Z.eq_dec e b 0%Z Ha). unfold zindex in E. rewrite E. reflexivity.
  Qed.

  Lemma set_del_length A (cur : list A) j i v : i < length cur -> j < length cur -> length (del_nth (set_nth cur j v) i) = length cur - 1.
  Proof.
    intros Hi Hj. assert (length (set_nth cur j v) = length cur) as E.
    { unfold set_nth. rewrite app_length, firstn_length. pose proof (skipn_length j cur) as Q. destruct (skipn j cur); cbn [length] in *; lia. }
    unfold del_nth. rewrite app_length, firstn_length, skipn_length, E. lia.
  Qed.
  Lemma set_nth_nth A (cur : list A) j v x d : j < length cur -> nth x (set_nth cur j v) d = if x =? j then v else nth x cur d.
  Proof.
    revert j x. induction cur as [|y r IH]; intros j x H; [cbn in H; lia|]. destruct j as [|j]; destruct x as [|x]; cbn; try reflexivity. cbn in H. apply (IH j x). lia.
  Qed.
  Lemma del_nth_nth A (cur : list A) i x d : i < length cur -> nth x (del_nth cur i) d = nth (skip i x) cur d.
  Proof.
    unfold skip. revert i x. induction cur as [|y r IH]; intros i x H; [cbn in H; lia|]. destruct i as [|i]; [reflexivity|]. destruct x as [|x]; [reflexivity|]. cbn in H. unfold del_nth in *. cbn [firstn skipn app nth]. rewrite IH by lia.
    destruct (Nat.ltb_spec x i), (Nat.ltb_spec (S x) (S i)); try lia; reflexivity.
  Qed.

  (** the labels still on each tensor, and those already contracted *)
  Record oinv (gs : list (list nat)) (cur : list (list Z)) (con : list Z) : Prop := {
    oi_len : length cur = length gs;
    oi_nodup : forall a, a < length gs -> NoDup (nth a cur []);
    oi_cur : forall a e, a < length gs -> (In e (nth a cur []) <-> cnt (grp gs a) e = 1);
    oi_con : NoDup con;
    oi_done : forall e, In e con <-> exists a, a < length gs /\ cnt (grp gs a) e = 2
  }.
  Lemma ostep gs cur con j i : partition n gs -> oinv gs cur con -> ok_pair (length gs) (j, i) ->
    exists cur' l, ord_step cur con (j, i) = Ok (cur', con ++ l) /\ oinv (join gs j i) cur' (con ++ l) /\
      lists (fun e => In e (lo (grp gs j)) /\ In e (lo (grp gs i))) l.
  Proof.
    intros P [H1 H2 H3 H4 H5] [Hji Hi]. cbn [fst snd] in *. assert (Hj : j < length gs) by lia. unfold ord_step. cbn [fst snd].
    rewrite (nth_error_nth' cur [] (n := j)), (nth_error_nth' cur [] (n := i)) by lia. cbv beta iota zeta. set (a := nth j cur []). set (b := nth i cur []).
    assert (forall e, In e (common a b) <-> cnt (grp gs j) e = 1 /\ cnt (grp gs i) e = 1) as Hc.
    { intros e. rewrite common_in. unfold a, b. rewrite !H3 by lia. reflexivity. }
    eexists _, (common a b). split; [reflexivity|]. split.
    - constructor.
      + rewrite set_del_length by lia. rewrite join_length by lia. lia.
      + intros x Hx. rewrite join_length in Hx by lia. rewrite del_nth_nth by (unfold set_nth; rewrite app_length, firstn_length; pose proof (skipn_length j cur); destruct (skipn j cur); cbn [length] in *; lia).
        rewrite set_nth_nth by lia. destruct (Nat.eqb_spec (skip i x) j) as [E|N].
        * assert (NoDup a /\ NoDup b) as [Na Nb] by (split; apply H2; lia).
          apply NoDup_app_intro; [apply delete_nodup, Na | apply delete_nodup, Nb|]. intros e Q1 Q2. apply delete_common in Q1 as [Q1 _]; [|exact Na]. apply delete_common_r in Q2 as [_ Q2]; [|exact Nb]. contradiction.
        * apply H2. unfold skip in *. destruct (Nat.ltb_spec x i); lia.
      + intros x e Hx. rewrite join_length in Hx by lia. rewrite del_nth_nth by (unfold set_nth; rewrite app_length, firstn_length; pose proof (skipn_length j cur); destruct (skipn j cur); cbn [length] in *; lia).
        rewrite set_nth_nth by lia. rewrite join_nth by lia. destruct (Nat.eqb_spec (skip i x) j) as [E|N].
        * assert (NoDup a /\ NoDup b) as [Na Nb] by (split; apply H2; lia).
          rewrite in_app_iff, delete_common, delete_common_r by assumption. unfold a, b. rewrite !H3 by lia. rewrite cnt_app.
          pose proof (@cnt_part gs j i e P Hj Hi ltac:(lia)). lia.
        * apply H3. unfold skip in *. destruct (Nat.ltb_spec x i); lia.
      + apply NoDup_app_intro; [exact H4 | apply zuniq_nodup|]. intros e Q1 Q2. apply H5 in Q1 as (x & Hx & Q1). apply Hc in Q2 as [Q2 Q3].
        destruct (Nat.eq_dec x j) as [->|N]; [lia|]. pose proof (@cnt_part gs x j e P Hx Hj N). lia.
      + intros e. rewrite in_app_iff, H5, Hc. rewrite join_length by lia. split.
        * intros [(x & Hx & Q)|[Q1 Q2]].
          -- destruct (Nat.eq_dec x j) as [->|N1]; [|destruct (Nat.eq_dec x i) as [->|N2]].
             ++ exists j. split; [lia|]. rewrite join_nth by lia. unfold skip. destruct (Nat.ltb_spec j i); [|lia]. rewrite Nat.eqb_refl, cnt_app. pose proof (@cnt_part gs j i e P Hj Hi ltac:(lia)). lia.
             ++ exists j. split; [lia|]. rewrite join_nth by lia. unfold skip. destruct (Nat.ltb_spec j i); [|lia]. rewrite Nat.eqb_refl, cnt_app. pose proof (@cnt_part gs j i e P Hj Hi ltac:(lia)). lia.
             ++ exists (if x <? i then x else x - 1). destruct (Nat.ltb_spec x i) as [F|F].
                ** split; [lia|]. rewrite join_nth by lia. unfold skip. destruct (Nat.ltb_spec x i); [|lia]. destruct (Nat.eqb_spec x j); [contradiction|]. exact Q.
                ** split; [lia|]. rewrite join_nth by lia. unfold skip. destruct (Nat.ltb_spec (x - 1) i); [lia|]. replace (S (x - 1)) with x by lia. destruct (Nat.eqb_spec x j); [contradiction|]. exact Q.
          -- exists j. split; [lia|]. rewrite join_nth by lia. unfold skip. destruct (Nat.ltb_spec j i); [|lia]. rewrite Nat.eqb_refl, cnt_app. lia.
        * intros (x & Hx & Q). rewrite join_nth in Q by lia. destruct (Nat.eqb_spec (skip i x) j) as [E|N].
          -- rewrite cnt_app in Q. destruct (cnt (grp gs j) e) as [|[|[|k]]] eqn:C1; [left; exists i; lia | right; lia | left; exists j; lia | lia].
          -- left. exists (skip i x). split; [unfold skip; destruct (Nat.ltb_spec x i); lia | exact Q].
    - split; [apply zuniq_nodup|]. split; [apply zuniq_sorted|]. intros e. rewrite Hc. rewrite !(count_occ_In Z.eq_dec). pose proof (@cnt_part gs j i e P Hj Hi ltac:(lia)). lia.
  Qed.
  Lemma osteps o : forall gs cur con, partition n gs -> oinv gs cur con -> in_range (length gs) o ->
    exists ls, ord_steps cur con o = Ok (con ++ concat ls) /\ contracts labels gs o ls /\
      exists gs' cur', partition n gs' /\ length gs' <= 1 /\ oinv gs' cur' (con ++ concat ls).
  Proof.
    induction o as [|[j i] o IH]; intros gs cur con P H R.
    - exists []. cbn [concat ord_steps contracts]. rewrite app_nil_r. split; [reflexivity|]. split; [exact Logic.I|]. exists gs, cur. split; [exact P|]. split; [exact R | exact H].
    - cbn [in_range] in R. destruct R as [R1 R2]. destruct (ostep P H R1) as (cur' & l & E & H' & Hl). cbn [ord_steps]. rewrite E. cbn [rbind fst snd].
      destruct R1 as [R1 R1']. cbn [fst snd] in *. destruct (IH (join gs j i) cur' (con ++ l)) as (ls & E' & C & gs' & cur'' & Q).
      + apply join_partition; (lia || exact P).
      + exact H'.
      + rewrite join_length by lia. exact R2.
      + exists (l :: ls). cbn [concat contracts]. rewrite <- app_assoc in E'. split; [exact E'|]. split; [split; [exact Hl | exact C]|]. exists gs', cur''. rewrite app_assoc. exact Q.
  Qed.
  Lemma ostart : oinv (singles n) (map untraced labels) (flat_map traced labels).
  Proof.
    assert (forall a e, a < n -> cnt (grp (singles n) a) e = zcount (nth a labels []) e) as Ec.
    { intros a e H. rewrite singles_grp by exact H. unfold labels_of. cbn [flat_map]. rewrite app_nil_r. reflexivity. }
    assert (forall a, nth a (map untraced labels) [] = untraced (nth a labels [])) as Eu by (intros a; apply (map_nth untraced labels [] a)).
    assert (forall ls, NoDup (untraced ls)) as Nu.
    { intros ls. apply (NoDup_count_occ Z.eq_dec). intros e. destruct (in_dec Z.eq_dec e (untraced ls)) as [H|H]; [|apply (count_occ_not_In Z.eq_dec) in H; lia].
      unfold untraced in *. apply filter_In in H as [_ H]. apply Nat.eqb_eq in H. unfold zcount in *. apply Nat.le_trans with (count_occ Z.eq_dec ls e); [|lia].
      generalize (fun l => count_occ Z.eq_dec ls l =? 1). intros f. clear. induction ls as [|x r IH]; [apply le_n|]. cbn [filter]. destruct (f x); cbn [count_occ]; destruct (Z.eq_dec x e); lia. }
    assert (forall ls e, In e (traced ls) <-> zcount ls e = 2) as Ht.
    { intros ls e. unfold traced. rewrite zuniq_in, filter_In, Nat.eqb_eq. unfold zcount. rewrite (count_occ_In Z.eq_dec). lia. }
    constructor.
    - rewrite map_length, singles_len. reflexivity.
    - intros a _. rewrite Eu. apply Nu.
    - intros a e H. rewrite singles_len in H. rewrite Eu, Ec by exact H. unfold untraced. rewrite filter_In, Nat.eqb_eq. unfold zcount. rewrite (count_occ_In Z.eq_dec). lia.
    - assert (forall m, (forall e, count_occ Z.eq_dec (concat m) e <= 2) -> NoDup (flat_map traced m)) as Q; [|apply Q, twice].
      induction m as [|ls m IH]; intros Hm; cbn [flat_map]; [constructor|]. cbn [concat] in Hm. apply NoDup_app_intro; [apply zuniq_nodup | apply IH; intros e; specialize (Hm e); rewrite count_occ_app in Hm; lia|].
      intros e Q1 Q2. apply Ht in Q1. apply in_flat_map in Q2 as (ls' & Q2 & Q3). apply Ht in Q3. specialize (Hm e). rewrite count_occ_app in Hm. apply in_split in Q2 as (m1 & m2 & ->). rewrite concat_app, count_occ_app in Hm. cbn [concat] in Hm. rewrite count_occ_app in Hm. unfold zcount in *. lia.
    - intros e. rewrite in_flat_map, singles_len. split.
      + intros (ls & Q1 & Q2). apply Ht in Q2. apply In_nth with (d := []) in Q1 as (a & Ha & E). exists a. split; [exact Ha|]. rewrite Ec, E by exact Ha. exact Q2.
      + intros (a & Ha & Q). rewrite Ec in Q by exact Ha. exists (nth a labels []). split; [apply nth_In, Ha | apply Ht, Q].
  Qed.

  Lemma ord_main o : 1 <= n -> in_range n o -> exists ls,
    ord_to_ncon labels o = Ok (flat_map traced labels ++ concat ls) /\ contracts labels (singles n) o ls /\
    Permutation (flat_map traced labels ++ concat ls) (internal labels).
  Proof.
    intros Hn R. apply in_range_len in R as R'; [|exact Hn]. destruct R' as [_ Hl]. unfold ord_to_ncon. rewrite Hl, Nat.eqb_refl. destruct (Nat.eqb_spec n 0) as [F0|F0]; [lia|]. cbn [negb andb guard]. clear F0.
    destruct (@osteps o (singles n) (map untraced labels) (flat_map traced labels)) as (ls & E & C & gs' & cur' & P & L1 & H).
    - apply singles_part.
    - apply ostart.
    - rewrite singles_len. exact R.
    - exists ls. split; [exact E|]. split; [exact C|]. apply NoDup_Permutation; [apply H | apply NoDup_filter, NoDup_nodup|].
      intros e. rewrite (oi_done H). unfold internal. rewrite filter_In, nodup_In, Nat.eqb_eq.
      destruct gs' as [|g [|]]; cbn [length] in L1; try lia.
      + exfalso. unfold partition in P. cbn in P. apply Permutation_length in P. rewrite seq_length in P. cbn in P. lia.
      + unfold partition in P. cbn [concat] in P. rewrite app_nil_r in P. assert (cnt g e = occurs labels e) as Q by (rewrite (cnt_perm e P); apply cnt_all).
        cbn [length]. split.
        * intros (a & Ha & F). assert (a = 0) as -> by lia. unfold grp in F. cbn [nth] in F. rewrite Q in F. split; [|exact F]. apply (count_occ_In Z.eq_dec). unfold occurs in F. lia.
        * intros [_ F]. exists 0. split; [lia|]. unfold grp. cbn [nth]. lia.
  Qed.
End Order.

(** ** adjacency *)
Section Adjacency.
  Context {L : lsf}.
  Variable ldim : nat -> L.
  Variable shapes : list (list nat).
  Variable labels : list (list Z).
  Notation n := (length labels).
  Hypothesis Hnet : network shapes labels.
  Notation ax := (axes_of labels).

  Lemma ax_in t e k : In k (ax t e) <-> k < rank labels t /\ lab labels t k = e.
  Proof. unfold axes_of. rewrite filter_In, in_seq, Z.eqb_eq. unfold rank, lab. intuition lia. Qed.
  Lemma ax_nodup t e : NoDup (ax t e).
  Proof. apply NoDup_filter, seq_NoDup. Qed.
  Lemma rank_in t k : k < rank labels t -> t < n.
  Proof. intros H. destruct (Nat.lt_ge_cases t n) as [Q|Q]; [exact Q|]. unfold rank in H. rewrite nth_overflow in H by exact Q. cbn in H. lia. Qed.
  Lemma locs_in e t k : In (t, k) (locs labels e) <-> In k (ax t e).
  Proof.
    unfold locs. rewrite in_flat_map. split.
    - intros (t' & _ & H). apply in_map_iff in H as (k' & E & H). inversion E; subst. exact H.
    - intros H. exists t. split; [|apply in_map, H]. apply ax_in in H as [H _]. apply rank_in in H. apply in_seq. lia.
  Qed.
  Lemma locs_nodup e : NoDup (locs labels e).
  Proof.
    unfold locs. assert (forall l, NoDup l -> NoDup (flat_map (fun t => map (fun k => (t, k)) (ax t e)) l)) as Q; [|apply Q, seq_NoDup].
    induction l as [|t l IH]; intros H; cbn [flat_map]; [constructor|]. apply NoDup_cons_iff in H as [Ht H]. apply NoDup_app_intro; [|apply IH, H|].
    - apply FinFun.Injective_map_NoDup; [intros a b E; inversion E; reflexivity | apply ax_nodup].
    - intros [t' k] Q1 Q2. apply in_map_iff in Q1 as (k' & E & _). inversion E; subst. apply in_flat_map in Q2 as (t'' & Q2 & Q3). apply in_map_iff in Q3 as (k'' & E' & _). inversion E'; subst. contradiction.
  Qed.
  Lemma locs_length e : length (locs labels e) = occurs labels e.
  Proof.
    unfold locs, occurs. assert (forall (ls : list Z) , length (filter (fun k => Z.eqb (nth k ls 0%Z) e) (seq 0 (length ls))) = count_occ Z.eq_dec ls e) as Q.
    { clear. induction ls as [|x r IH]; [reflexivity|]. cbn [length seq filter count_occ]. change (nth 0 (x :: r) 0%Z) with x. rewrite <- seq_shift.
      assert (forall m, length (filter (fun k => Z.eqb (nth k (x :: r) 0%Z) e) (map S m)) = length (filter (fun k => Z.eqb (nth k r 0%Z) e) m)) as F.
      { induction m as [|k m IHm]; [reflexivity|]. cbn [map filter]. change (nth (S k) (x :: r) 0%Z) with (nth k r 0%Z). destruct (Z.eqb (nth k r 0%Z) e); cbn [length]; rewrite IHm; reflexivity. }
      destruct (Z.eqb_spec x e), (Z.eq_dec x e); try congruence; cbn [length]; rewrite F, IH; reflexivity. }
    assert (forall l, length (flat_map (fun t => map (fun k => (t, k)) (ax t e)) l) = count_occ Z.eq_dec (concat (map (fun t => nth t labels []) l)) e) as R.
    { induction l as [|t l IH]; [reflexivity|]. cbn [flat_map map concat]. rewrite app_length, map_length, count_occ_app, IH. unfold axes_of. rewrite Q. reflexivity. }
    rewrite R. f_equal. f_equal. apply (@nth_ext _ _ _ [] []); [rewrite map_length, seq_length; reflexivity|].
    intros k H. rewrite map_length, seq_length in H. rewrite (nth_indep _ [] (nth 0 labels [])) by (rewrite map_length, seq_length; exact H). rewrite map_nth with (f := fun x => nth x labels []), seq_nth by exact H. reflexivity.
  Qed.

  (** what one label adds *)
  Definition contrib (e : Z) (x y : nat) : L :=
    match locs labels e with
    | [(t, k)] => if (x =? t) && (y =? t) then ldim (dim shapes t k) else l0
    | [(t0, k0); (t1, k1)] =>
        if t0 =? t1 then l0 else if ((x =? t0) && (y =? t1)) || ((x =? t1) && (y =? t0)) then ldim (dim shapes t0 k0) else l0
    | _ => l0
    end.
  Lemma contrib_sym e x y : contrib e x y = contrib e y x.
  Proof.
    unfold contrib. destruct (locs labels e) as [|[t k] [|[t1 k1] [|]]]; try reflexivity.
    - rewrite Bool.andb_comm. reflexivity.
    - destruct (t =? t1); [reflexivity|]. rewrite Bool.orb_comm, (Bool.andb_comm (x =? t1)), (Bool.andb_comm (x =? t)). reflexivity.
  Qed.
  Lemma shape_at_ok t k : k < rank labels t -> shape_at shapes t k = Ok (dim shapes t k).
  Proof.
    intros H. unfold shape_at, dim. rewrite <- (nw_shapes Hnet t) in H. assert (t < length shapes) as Ht.
    { destruct (Nat.lt_ge_cases t (length shapes)) as [Q|Q]; [exact Q|]. rewrite nth_overflow in H by exact Q. cbn in H. lia. }
    rewrite (nth_error_nth' shapes [] Ht). rewrite (nth_error_nth' _ 0 H). reflexivity.
  Qed.
  Lemma get_build m (f : nat -> nat -> L) x y : x < m -> y < m -> get (build m f) x y = f x y.
  Proof.
    intros Hx Hy. unfold get, build. rewrite (nth_indep _ [] (map (f 0) (seq 0 m))) by (rewrite map_length, seq_length; exact Hx).
    rewrite (map_nth (fun x => map (f x) (seq 0 m))), seq_nth by exact Hx. cbn [Nat.add]. rewrite (nth_indep _ l0 (f x 0)) by (rewrite map_length, seq_length; exact Hy). rewrite map_nth, seq_nth by exact Hy. reflexivity.
  Qed.
  Lemma build_length m (f : nat -> nat -> L) : length (build m f) = m.
  Proof. unfold build. rewrite map_length, seq_length. reflexivity. Qed.
  Lemma bump_length (m : list (list L)) x y v : length (bump m x y v) = length m.
  Proof. apply build_length. Qed.
  Lemma bump_get (m : list (list L)) x y v a b : a < length m -> b < length m -> get (bump m x y v) a b = lplus (get m a b) (if (a =? x) && (b =? y) then v else l0).
  Proof. intros Ha Hb. unfold bump. rewrite get_build by assumption. destruct ((a =? x) && (b =? y)); [reflexivity | symmetry; apply lplus_0]. Qed.
  Lemma add_label_ok m e : length m = n -> exists m', add_label ldim shapes labels m e = Ok m' /\ length m' = n /\
    forall x y, x < n -> y < n -> get m' x y = lplus (get m x y) (contrib e x y).
  Proof.
    intros Hm. unfold add_label, contrib. pose proof (locs_in e) as Hin. pose proof (locs_nodup e) as Hnd. destruct (locs labels e) as [|[t k] [|[t1 k1] [|]]].
    - exists m. split; [reflexivity|]. split; [exact Hm|]. intros. symmetry. apply lplus_0.
    - assert (k < rank labels t) as Hk by (apply (ax_in t e k), Hin; left; reflexivity). rewrite shape_at_ok by exact Hk. cbn [rbind]. eexists. split; [reflexivity|]. split; [rewrite bump_length; exact Hm|].
      intros x y Hx Hy. apply bump_get; lia.
    - assert (k < rank labels t) as Hk by (apply (ax_in t e k), Hin; left; reflexivity). destruct (Nat.eqb_spec t t1) as [E|N].
      + exists m. split; [reflexivity|]. split; [exact Hm|]. intros. symmetry. apply lplus_0.
      + rewrite shape_at_ok by exact Hk. cbn [rbind]. eexists. split; [reflexivity|]. split; [rewrite !bump_length; exact Hm|].
        intros x y Hx Hy. rewrite !bump_get by (rewrite ?bump_length; lia). rewrite <- lplus_a. f_equal.
        destruct (Nat.eqb_spec x t), (Nat.eqb_spec y t1), (Nat.eqb_spec x t1), (Nat.eqb_spec y t); subst; try congruence; cbn [andb orb]; rewrite ?lplus_0, ?lplus_0l; reflexivity.
    - exists m. split; [reflexivity|]. split; [exact Hm|]. intros. symmetry. apply lplus_0.
  Qed.
  Lemma add_labels_ok es : forall m, length m = n -> exists m', add_labels ldim shapes labels m es = Ok m' /\ length m' = n /\
    forall x y, x < n -> y < n -> get m' x y = lplus (get m x y) (lsum (map (fun e => contrib e x y) es)).
  Proof.
    induction es as [|e es IH]; intros m Hm; cbn [add_labels].
    - exists m. split; [reflexivity|]. split; [exact Hm|]. intros. symmetry. apply lplus_0.
    - destruct (add_label_ok e Hm) as (m1 & E1 & L1 & G1). rewrite E1. cbn [rbind]. destruct (IH m1 L1) as (m2 & E2 & L2 & G2). exists m2. split; [exact E2|]. split; [exact L2|].
      intros x y Hx Hy. rewrite G2, G1 by assumption. cbn [map lsum fold_right]. symmetry. apply lplus_a.
  Qed.

  (** a sum over axes, label by label *)
  Lemma lsum_if A (p : A -> bool) (f : A -> L) l : lsum (map f (filter p l)) = lsum (map (fun x => if p x then f x else l0) l).
  Proof.
    induction l as [|x l IH]; [reflexivity|]. cbn [filter map]. destruct (p x); cbn [map lsum fold_right]; fold (lsum (map f (filter p l))) (lsum (map (fun x => if p x then f x else l0) l)); rewrite IH; [reflexivity | symmetry; apply lplus_0l].
  Qed.
  Lemma lsum_delta (us : list Z) c v : NoDup us -> In c us -> lsum (map (fun e => if Z.eqb c e then v else @l0 L) us) = v.
  Proof.
    induction us as [|u us IH]; intros H Hin; [destruct Hin|]. apply NoDup_cons_iff in H as [Hu H]. cbn [map lsum fold_right]. fold (lsum (map (fun e => if Z.eqb c e then v else l0) us)).
    destruct (Z.eqb_spec c u) as [E|N].
    - rewrite (lsum_ext (g := fun _ => l0)); [rewrite lsum_zero; apply lplus_0|]. intros e He. destruct (Z.eqb_spec c e); [subst; contradiction | reflexivity].
    - destruct Hin as [Hin|Hin]; [congruence|]. rewrite IH by assumption. apply lplus_0l.
  Qed.
  Lemma by_label (F : nat -> L) x us : NoDup us -> (forall k, k < rank labels x -> In (lab labels x k) us) ->
    lsum (map F (seq 0 (rank labels x))) = lsum (map (fun e => lsum (map F (ax x e))) us).
  Proof.
    intros Hu Hin. symmetry. rewrite (lsum_ext (g := fun e => lsum (map (fun k => if Z.eqb (lab labels x k) e then F k else l0) (seq 0 (rank labels x))))) by (intros e _; unfold axes_of; rewrite lsum_if; reflexivity).
    rewrite lsum_swap. apply lsum_ext. intros k Hk. apply in_seq in Hk. apply lsum_delta; [exact Hu | apply Hin; lia].
  Qed.
  Lemma ax_single t e k : In k (ax t e) -> (forall k', In k' (ax t e) -> k' = k) -> ax t e = [k].
  Proof.
    intros H1 H2. pose proof (ax_nodup t e) as Nd. destruct (ax t e) as [|a [|b l]]; [destruct H1 | f_equal; apply H2; left; reflexivity|].
    exfalso. apply NoDup_cons_iff in Nd as [Na _]. apply Na. left. rewrite (H2 a), (H2 b); [reflexivity | right; left; reflexivity | left; reflexivity].
  Qed.
  Lemma ax_nil t e : (forall k, ~ In k (ax t e)) -> ax t e = [].
  Proof. intros H. destruct (ax t e) as [|a l]; [reflexivity|]. exfalso. apply (H a). left. reflexivity. Qed.

  Lemma contrib_open e x : contrib e x x = lsum (map (fun k => if occurs labels (lab labels x k) =? 1 then ldim (dim shapes x k) else l0) (ax x e)).
  Proof.
    rewrite (lsum_ext (g := fun k => if occurs labels e =? 1 then ldim (dim shapes x k) else l0)) by (intros k Hk; apply ax_in in Hk as [_ ->]; reflexivity).
    rewrite <- locs_length. unfold contrib. pose proof (locs_in e) as Hin. destruct (locs labels e) as [|[t k] [|[t1 k1] [|]]]; cbn [length Nat.eqb]; try (symmetry; apply lsum_zero).
    - destruct (Nat.eqb_spec x t) as [->|N]; cbn [andb].
      + rewrite (@ax_single t e k); [cbn; symmetry; apply lplus_0 | apply Hin; left; reflexivity|]. intros k' H. apply Hin in H as [H|[]]. congruence.
      + rewrite ax_nil; [reflexivity|]. intros k' H. apply Hin in H as [H|[]]. congruence.
    - rewrite lsum_zero. destruct (Nat.eqb_spec t t1); [reflexivity|]. destruct (Nat.eqb_spec x t), (Nat.eqb_spec x t1); subst; try congruence; reflexivity.
  Qed.
  Lemma in_labels y e : In e (nth y labels []) <-> exists k, In k (ax y e).
  Proof.
    split.
    - intros H. apply In_nth with (d := 0%Z) in H as (k & Hk & E). exists k. apply ax_in. split; assumption.
    - intros (k & H). apply ax_in in H as [H <-]. apply nth_In, H.
  Qed.
  Lemma contrib_between e x y : x <> y ->
    contrib e x y = lsum (map (fun k => if (if in_dec Z.eq_dec (lab labels x k) (nth y labels []) then true else false) then ldim (dim shapes x k) else l0) (ax x e)).
  Proof.
    intros Hxy. rewrite (lsum_ext (g := fun k => if (if in_dec Z.eq_dec e (nth y labels []) then true else false) then ldim (dim shapes x k) else l0)) by (intros k Hk; apply ax_in in Hk as [_ ->]; reflexivity).
    unfold contrib. pose proof (locs_in e) as Hin. pose proof (locs_length e) as Hl. pose proof (nw_twice Hnet e) as H2. destruct (in_dec Z.eq_dec e (nth y labels [])) as [Hy|Hy].
    - apply in_labels in Hy as (ky & Hy). apply Hin in Hy. destruct (locs labels e) as [|[t k] [|[t1 k1] [|]]].
      + destruct Hy.
      + destruct Hy as [Hy|[]]. inversion Hy; subst. destruct (Nat.eqb_spec x y); [contradiction|]. cbn [andb]. rewrite ax_nil; [reflexivity|]. intros k' H. apply Hin in H as [H|[]]. congruence.
      + destruct (Nat.eqb_spec t t1) as [E|N].
        * subst t1. rewrite ax_nil; [reflexivity|]. intros k' H. apply Hin in H. destruct Hy as [Hy|[Hy|[]]], H as [H|[H|[]]]; congruence.
        * assert (In k (ax t e) /\ In k1 (ax t1 e)) as [Ik Ik1] by (split; apply Hin; [left | right; left]; reflexivity).
          assert (ax t e = [k]) as A0 by (apply ax_single; [exact Ik|]; intros k' H; apply Hin in H as [H|[H|[]]]; congruence).
          assert (ax t1 e = [k1]) as A1 by (apply ax_single; [exact Ik1|]; intros k' H; apply Hin in H as [H|[H|[]]]; congruence).
          assert (dim shapes t k = dim shapes t1 k1) as Ed. { apply ax_in in Ik as [Q1 Q2]. apply ax_in in Ik1 as [Q3 Q4]. apply (nw_dims Hnet); congruence. }
          destruct Hy as [Hy|[Hy|[]]]; inversion Hy; subst.
          -- destruct (Nat.eqb_spec x y); [contradiction|]. rewrite Nat.eqb_refl. destruct (Nat.eqb_spec x t1) as [->|N1]; cbn [andb orb].
             ++ rewrite A1. cbn. rewrite lplus_0, Ed. reflexivity.
             ++ rewrite ax_nil; [reflexivity|]. intros k' H. apply Hin in H as [H|[H|[]]]; congruence.
          -- destruct (Nat.eqb_spec x y); [contradiction|]. rewrite Nat.eqb_refl. destruct (Nat.eqb_spec x t) as [->|N1]; cbn [andb orb].
             ++ rewrite A0. cbn. rewrite lplus_0. reflexivity.
             ++ rewrite ax_nil; [reflexivity|]. intros k' H. apply Hin in H as [H|[H|[]]]; congruence.
      + cbn [length] in Hl. lia.
    - rewrite lsum_zero. assert (forall k, ~ In (y, k) (locs labels e)) as Hno by (intros k H; apply Hy, in_labels; exists k; apply Hin, H).
      destruct (locs labels e) as [|[t k] [|[t1 k1] [|]]]; try reflexivity.
      + destruct (Nat.eqb_spec y t) as [->|]; [|rewrite Bool.andb_false_r; reflexivity]. exfalso. apply (Hno k). left. reflexivity.
      + destruct (t =? t1); [reflexivity|]. destruct (Nat.eqb_spec y t) as [->|]; [exfalso; apply (Hno k); left; reflexivity|]. destruct (Nat.eqb_spec y t1) as [->|]; [exfalso; apply (Hno k1); right; left; reflexivity|]. rewrite !Bool.andb_false_r. reflexivity.
  Qed.
  Lemma sum_contrib x y : x < n -> lsum (map (fun e => contrib e x y) (zuniq (concat labels))) = weight shapes labels ldim x y.
  Proof.
    intros Hx. assert (forall k, k < rank labels x -> In (lab labels x k) (zuniq (concat labels))) as Hin.
    { intros k Hk. apply zuniq_in. apply in_concat. exists (nth x labels []). split; [apply nth_In, Hx | apply nth_In, Hk]. }
    unfold weight. destruct (Nat.eqb_spec x y) as [<-|N].
    - unfold open_legs. rewrite lsum_if. rewrite (by_label _ (zuniq_nodup _) Hin). apply lsum_ext. intros e _. apply contrib_open.
    - unfold between. rewrite lsum_if. rewrite (by_label _ (zuniq_nodup _) Hin). apply lsum_ext. intros e _. apply contrib_between, N.
  Qed.
  Lemma adj_main : 1 <= n -> exists m, ncon_to_adj ldim shapes labels = Ok m /\ length m = n /\ forall x y, x < n -> y < n -> get m x y = weight shapes labels ldim x y.
  Proof.
    intros Hn. unfold ncon_to_adj. destruct (Nat.eqb_spec n 0) as [F|F]; [lia|]. cbn [negb guard]. clear F.
    destruct (@add_labels_ok (zuniq (concat labels)) (build n (fun _ _ => l0))) as (m & E & Lm & G); [apply build_length|].
    exists m. split; [exact E|]. split; [exact Lm|]. intros x y Hx Hy. rewrite G, get_build, lplus_0l by assumption. apply sum_contrib, Hx.
  Qed.
  Lemma weight_sym x y : x < n -> y < n -> weight shapes labels ldim x y = weight shapes labels ldim y x.
  Proof. intros Hx Hy. rewrite <- !sum_contrib by assumption. apply lsum_ext. intros e _. apply contrib_sym. Qed.
  Hypothesis ldim_pos : forall d, 1 <= d -> lle l0 (ldim d) = true.
  Lemma weight_pos x y : lle l0 (weight shapes labels ldim x y) = true.
  Proof.
    assert (forall (p : nat -> bool), lle l0 (lsum (map (fun k => ldim (dim shapes x k)) (filter p (seq 0 (rank labels x))))) = true) as Q.
    { intros p. apply lsum_nonneg. intros v Hv. apply in_map_iff in Hv as (k & <- & Hk). apply filter_In in Hk as [Hk _]. apply in_seq in Hk. apply ldim_pos, (nw_pos Hnet). lia. }
    unfold weight. destruct (x =? y); apply Q.
  Qed.
End Adjacency.
