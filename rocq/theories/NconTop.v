(** * NconTop: canonicalisation of labels, validation, and correctness of ncon itself. *)
From Coq Require Import ZArith NArith Nnat String Ascii Sorting.Sorted.
From Verif Require Import Prelude Algebra Tensor TensorFacts Einsum EinsumFacts Ncon NconFacts NconProof NconSpec.
Set Implicit Arguments.
Unset Strict Implicit.
Open Scope list_scope.
Open Scope nat_scope.

(** ** Labels *)
Lemma is_out_Open l : is_out l = true <-> Open l.
Proof.
  destruct l as [z|s]; cbn [is_out].
  - rewrite Z.ltb_lt. split; [constructor; assumption | inversion 1; assumption].
  - destruct s as [|c s]; cbn [hyphen]; [split; [discriminate | inversion 1]|].
    split.
    + intros E. apply Ascii.eqb_eq in E. subst. constructor.
    + inversion 1; subst. reflexivity.
Qed.
Lemma is_out_not l : is_out l = false <-> ~ Open l.
Proof. rewrite <- is_out_Open. destruct (is_out l); intuition congruence. Qed.
Lemma Open_dec l : {Open l} + {~ Open l}.
Proof. destruct (is_out l) eqn:E; [left; apply is_out_Open | right; apply is_out_not]; exact E. Qed.

Lemma ascii_compare c d :
  Ascii.compare c d = Nat.compare (nat_of_ascii c) (nat_of_ascii d).
Proof. unfold Ascii.compare, nat_of_ascii. rewrite N2Nat.inj_compare. reflexivity. Qed.

Lemma nat_of_ascii_inj c d : nat_of_ascii c = nat_of_ascii d -> c = d.
Proof. intros E. rewrite <- (ascii_nat_embedding c), <- (ascii_nat_embedding d). congruence. Qed.

Lemma leb_str_le s t : String.leb s t = true <-> str_le s t.
Proof.
  revert t. induction s as [|c s IH]; intros [|d t].
  - split; [constructor | reflexivity].
  - split; [constructor | reflexivity].
  - split; [discriminate | inversion 1].
  - unfold String.leb in *. cbn [String.compare]. rewrite ascii_compare.
    destruct (Nat.compare_spec (nat_of_ascii c) (nat_of_ascii d)) as [E|E|E].
    + apply nat_of_ascii_inj in E. subst d. rewrite IH. split; [constructor; assumption|].
      inversion 1; subst; [lia | assumption].
    + split; [intros _; constructor; exact E | reflexivity].
    + split; [discriminate|]. inversion 1; subst; lia.
Qed.

Lemma str_le_trans s t u : str_le s t -> str_le t u -> str_le s u.
Proof.
  intros H. revert u. induction H as [s|c s d t H|c s t H IH]; intros u Hu.
  - constructor.
  - inversion Hu; subst; constructor; lia.
  - inversion Hu; subst; [apply str_le_lt; assumption | apply str_le_eq; auto].
Qed.

Lemma label_leb_total x y : label_leb x y = true \/ label_leb y x = true.
Proof.
  destruct x as [a|s], y as [b|t]; cbn; auto.
  - rewrite !Z.leb_le. lia.
  - apply String.leb_total.
Qed.
Lemma label_leb_trans x y z : label_leb x y = true -> label_leb y z = true -> label_leb x z = true.
Proof.
  destruct x as [a|s], y as [b|t], z as [c|u]; cbn; auto; try discriminate.
  - rewrite !Z.leb_le. lia.
  - rewrite !leb_str_le. apply str_le_trans.
Qed.
Lemma label_leb_anti x y : label_leb x y = true -> label_leb y x = true -> x = y.
Proof.
  destruct x as [a|s], y as [b|t]; cbn; try discriminate.
  - rewrite !Z.leb_le. intros. f_equal. lia.
  - intros H1 H2. f_equal. apply String.leb_antisym; assumption.
Qed.

Lemma out_before_anti x y : out_before x y -> out_before y x -> x = y.
Proof.
  intros H1 H2. inversion H1; subst; inversion H2; subst.
  - f_equal. lia.
  - f_equal. apply String.leb_antisym; apply leb_str_le; assumption.
Qed.

(** ** sorted lists *)
Lemma StronglySorted_app A (P : A -> A -> Prop) l1 l2 :
  StronglySorted P l1 -> StronglySorted P l2 -> (forall x y, In x l1 -> In y l2 -> P x y) ->
  StronglySorted P (l1 ++ l2).
Proof.
  induction 1 as [|x r S IH F]; intros S2 H; cbn; [exact S2|].
  constructor.
  - apply IH; [exact S2|]. intros; apply H; [right|]; assumption.
  - apply Forall_app. split; [exact F|]. apply Forall_forall. intros y Hy. apply H; [left; reflexivity | exact Hy].
Qed.
Lemma StronglySorted_impl A (P Q : A -> A -> Prop) l :
  (forall x y, In x l -> In y l -> P x y -> Q x y) -> StronglySorted P l -> StronglySorted Q l.
Proof.
  intros H S. induction S as [|x r S IH F]; [constructor|]. constructor.
  - apply IH. intros; apply H; [right|right|]; assumption.
  - apply Forall_forall. intros y Hy. rewrite Forall_forall in F. apply H; [left; reflexivity | right; exact Hy | auto].
Qed.
Lemma StronglySorted_rev A (P : A -> A -> Prop) l :
  StronglySorted P l -> StronglySorted (fun x y => P y x) (rev l).
Proof.
  induction 1 as [|x r S IH F]; [constructor|]. cbn. apply StronglySorted_app; [exact IH | constructor; constructor|].
  intros y z Hy [<-|[]]. rewrite Forall_forall in F. apply F, in_rev, Hy.
Qed.
Lemma StronglySorted_map A B (f : A -> B) (P : B -> B -> Prop) l :
  StronglySorted (fun x y => P (f x) (f y)) l -> StronglySorted P (map f l).
Proof.
  induction 1 as [|x r S IH F]; cbn; constructor; [exact IH|].
  apply Forall_forall. intros y Hy. apply in_map_iff in Hy. destruct Hy as (z & <- & Hz).
  rewrite Forall_forall in F. auto.
Qed.

(** ** the dictionary of canonical labels *)
Lemma length_zrange a n : List.length (zrange a n) = n.
Proof. unfold zrange. rewrite map_length. apply seq_length. Qed.
Lemma nth_zrange a n i d : i < n -> nth i (zrange a n) d = (a + Z.of_nat i)%Z.
Proof.
  intros H. unfold zrange. rewrite (@nth_indep _ _ _ d (a + Z.of_nat 0)%Z) by (rewrite map_length, seq_length; exact H).
  rewrite (map_nth (fun i => (a + Z.of_nat i)%Z)). rewrite seq_nth by exact H. reflexivity.
Qed.

Lemma lookup_app m1 m2 l : lookup (m1 ++ m2) l = match lookup m1 l with Some z => Some z | None => lookup m2 l end.
Proof.
  induction m1 as [|[k v] r IH]; cbn; [reflexivity|]. destruct (label_dec l k); [reflexivity | exact IH].
Qed.
Lemma lookup_combine ks vs l : List.length ks = List.length vs ->
  lookup (combine ks vs) l = if in_dec label_dec l ks then Some (nth (index_of label_dec l ks) vs 0%Z) else None.
Proof.
  revert vs. induction ks as [|k r IH]; intros [|v vs] E; try discriminate.
  - reflexivity.
  - cbn [combine lookup]. cbn [index_of].
    destruct (label_dec l k) as [e|e].
    + destruct (in_dec label_dec l (k :: r)) as [i|i]; [reflexivity|]. exfalso. apply i. left. congruence.
    + rewrite IH by (cbn in E; congruence).
      destruct (in_dec label_dec l r) as [i|i], (in_dec label_dec l (k :: r)) as [j|j]; try reflexivity.
      * exfalso. apply j. right. exact i.
      * exfalso. destruct j as [j|j]; [congruence | contradiction].
Qed.

Section Mapping.
  Variable flat : list label.
  Let ns := neg_str_labels flat ++ neg_int_labels flat.
  Let ps := pos_int_labels flat ++ pos_str_labels flat.

  Lemma In_ns l : In l ns <-> In l flat /\ Open l.
  Proof.
    unfold ns, neg_str_labels, neg_int_labels. rewrite in_app_iff, !In_sort, !filter_In, !nodup_In.
    rewrite !andb_true_iff, negb_true_iff, is_out_Open. destruct (is_int l); intuition congruence.
  Qed.
  Lemma In_ps l : In l ps <-> In l flat /\ ~ Open l /\ l <> LInt 0.
  Proof.
    unfold ps, pos_str_labels, pos_int_labels. rewrite in_app_iff, !In_sort, !filter_In, !nodup_In.
    rewrite !andb_true_iff, !negb_true_iff, is_out_not.
    destruct l as [z|s]; cbn [is_int].
    - rewrite Z.ltb_lt. split.
      + intros [[H1 H2]|[_ [H _]]]; [|discriminate]. repeat split; auto.
        * intros O. inversion O. lia.
        * intros E. inversion E. lia.
      + intros (H & O & E). left. split; [exact H|].
        assert (~ (z < 0)%Z) by (intros L; apply O; constructor; exact L).
        assert (z <> 0%Z) by congruence. lia.
    - split; [intros [[_ H]|[H1 [_ H2]]]; [discriminate|]; repeat split; auto; discriminate | tauto].
  Qed.
  Lemma NoDup_ns : NoDup ns.
  Proof.
    apply NoDup_app_iff. repeat split; try (apply NoDup_sort, NoDup_filter, NoDup_nodup).
    intros x H1 H2. unfold neg_str_labels, neg_int_labels in *. rewrite In_sort, filter_In, andb_true_iff in H1, H2.
    destruct (is_int x); cbn in *; intuition congruence.
  Qed.
  Lemma NoDup_ps : NoDup ps.
  Proof.
    apply NoDup_app_iff. repeat split; try (apply NoDup_sort, NoDup_filter, NoDup_nodup).
    intros x H1 H2. unfold pos_str_labels, pos_int_labels in *. rewrite In_sort, filter_In in H1, H2.
    destruct x; cbn in *; intuition congruence.
  Qed.
  (** the open labels, from the back, are in the documented output order *)
  Lemma ns_sorted : StronglySorted out_before (rev ns).
  Proof.
    unfold ns. rewrite rev_app_distr. apply StronglySorted_app.
    - eapply StronglySorted_impl.
      2:{ apply StronglySorted_rev. apply sort_sorted; [apply label_leb_total | apply label_leb_trans]. }
      cbn beta. intros x y Hx Hy H. apply in_rev in Hx, Hy. unfold neg_int_labels, neg_str_labels in *. rewrite In_sort, filter_In, andb_true_iff in Hx, Hy.
      destruct x as [a|s], y as [b|t]; cbn in *; try (intuition discriminate).
      constructor. apply Z.leb_le. exact H.
    - eapply StronglySorted_impl.
      2:{ apply StronglySorted_rev. apply sort_sorted.
          - intros x y. unfold label_geb. destruct (label_leb_total x y); auto.
          - unfold label_geb. intros x y z H1 H2. eapply label_leb_trans; eassumption. }
      cbn beta. intros x y Hx Hy H. apply in_rev in Hx, Hy. unfold neg_int_labels, neg_str_labels in *. rewrite In_sort, filter_In, andb_true_iff in Hx, Hy.
      unfold label_geb in H. destruct x as [a|s], y as [b|t]; cbn in *; try (intuition discriminate).
      constructor. apply leb_str_le, H.
    - intros x y Hx Hy. apply in_rev in Hx, Hy. unfold neg_int_labels, neg_str_labels in *.
      rewrite In_sort, filter_In, andb_true_iff in Hx, Hy.
      destruct x as [a|s], y as [b|t]; cbn in *; try (intuition discriminate). constructor.
  Qed.

  Lemma lookup_mapping l : lookup (mapping flat) l =
    if in_dec label_dec l ns then Some (- Z.of_nat (List.length ns) + Z.of_nat (index_of label_dec l ns))%Z
    else if in_dec label_dec l ps then Some (1 + Z.of_nat (index_of label_dec l ps))%Z else None.
  Proof.
    unfold mapping. fold ns ps. rewrite lookup_app, !lookup_combine by (rewrite length_zrange; reflexivity).
    destruct (in_dec label_dec l ns) as [i|i].
    - rewrite nth_zrange by (apply index_of_lt, i). reflexivity.
    - destruct (in_dec label_dec l ps) as [j|j]; [|reflexivity].
      rewrite nth_zrange by (apply index_of_lt, j). reflexivity.
  Qed.

  Definition phi (l : label) : Z := match lookup (mapping flat) l with Some z => z | None => 0%Z end.

  Lemma phi_neg l : In l ns -> phi l = (- Z.of_nat (List.length ns) + Z.of_nat (index_of label_dec l ns))%Z.
  Proof. intros H. unfold phi. rewrite lookup_mapping. destruct (in_dec label_dec l ns); [reflexivity | contradiction]. Qed.
  Lemma phi_pos l : In l ps -> phi l = (1 + Z.of_nat (index_of label_dec l ps))%Z.
  Proof.
    intros H. unfold phi. rewrite lookup_mapping. destruct (in_dec label_dec l ns) as [i|i].
    - apply In_ns in i. apply In_ps in H. tauto.
    - destruct (in_dec label_dec l ps); [reflexivity | contradiction].
  Qed.
  Lemma lookup_some l : lookup (mapping flat) l <> None <-> In l flat /\ l <> LInt 0.
  Proof.
    rewrite lookup_mapping. destruct (in_dec label_dec l ns) as [i|i].
    - apply In_ns in i. split; [|discriminate]. intros _. split; [tauto|]. intros ->. destruct i as [_ O]. inversion O. lia.
    - rewrite In_ns in i. destruct (in_dec label_dec l ps) as [j|j]; rewrite In_ps in j.
      + split; [tauto | discriminate].
      + split; [congruence|]. intros [H1 H2] _. destruct (Open_dec l); tauto.
  Qed.
  Lemma lookup_phi l z : lookup (mapping flat) l = Some z -> z = phi l.
  Proof. unfold phi. intros ->. reflexivity. Qed.

  Definition mapped l := In l flat /\ l <> LInt 0.
  Lemma mapped_cases l : mapped l -> (In l ns /\ Open l) \/ (In l ps /\ ~ Open l).
  Proof. intros [H1 H2]. rewrite In_ns, In_ps. destruct (Open_dec l); tauto. Qed.
  Lemma phi_sign l : mapped l -> (Open l /\ (phi l < 0)%Z) \/ (~ Open l /\ (0 < phi l)%Z).
  Proof.
    intros H. destruct (mapped_cases H) as [[i O]|[i O]]; [left | right]; (split; [exact O|]).
    - rewrite (phi_neg i). pose proof (@index_of_lt _ label_dec _ _ i). lia.
    - rewrite (phi_pos i). lia.
  Qed.
  Lemma index_inj (ks : list label) l l' :
    In l ks -> In l' ks -> index_of label_dec l ks = index_of label_dec l' ks -> l = l'.
  Proof.
    intros H H' E. pose proof (@nth_index_of _ label_dec _ _ (LInt 0) H) as E1. pose proof (@nth_index_of _ label_dec _ _ (LInt 0) H') as E2.
    rewrite E in E1. rewrite <- E1. exact E2.
  Qed.
  Lemma phi_inj l l' : mapped l -> mapped l' -> phi l = phi l' -> l = l'.
  Proof.
    intros H H' E. destruct (phi_sign H) as [[O S]|[O S]], (phi_sign H') as [[O' S']|[O' S']]; try lia;
      destruct (mapped_cases H) as [[i Oi]|[i Oi]], (mapped_cases H') as [[j Oj]|[j Oj]]; try tauto.
    - rewrite (phi_neg i), (phi_neg j) in E. apply (index_inj i j). lia.
    - rewrite (phi_pos i), (phi_pos j) in E. apply (index_inj i j). lia.
  Qed.

  Lemma lookups_phi ls zs : lookups (mapping flat) ls = Ok zs ->
    zs = map phi ls /\ forall l, In l ls -> mapped l.
  Proof.
    revert zs. induction ls as [|l r IH]; cbn [lookups]; intros zs H.
    - inversion H. split; [reflexivity | intros l []].
    - destruct (lookup (mapping flat) l) as [z|] eqn:E; [|discriminate].
      destruct (lookups (mapping flat) r) as [zs'| |]; cbn [rbind] in H; try discriminate.
      inversion H; subst. destruct (IH zs' eq_refl) as [-> Hm]. split.
      + cbn. f_equal. apply lookup_phi, E.
      + intros l' [<-|Hl]; [|auto]. apply lookup_some. congruence.
  Qed.
  Lemma lookups_ok ls : (forall l, In l ls -> mapped l) -> lookups (mapping flat) ls = Ok (map phi ls).
  Proof.
    induction ls as [|l r IH]; intros H; [reflexivity|]. cbn [lookups map].
    destruct (lookup (mapping flat) l) as [z|] eqn:E.
    - rewrite IH by (intros; apply H; right; assumption). cbn. rewrite (lookup_phi E). reflexivity.
    - exfalso. apply (proj2 (lookup_some l)); [apply H; left; reflexivity | exact E].
  Qed.
  Lemma lookupss_phi net zss : lookupss (mapping flat) net = Ok zss ->
    zss = map (map phi) net /\ forall l, In l (List.concat net) -> mapped l.
  Proof.
    revert zss. induction net as [|ls r IH]; cbn [lookupss]; intros zss H.
    - inversion H. split; [reflexivity | intros l []].
    - destruct (lookups (mapping flat) ls) as [zs| |] eqn:E; cbn [rbind] in H; try discriminate.
      destruct (lookupss (mapping flat) r) as [zss'| |]; cbn [rbind] in H; try discriminate.
      inversion H; subst. destruct (IH zss' eq_refl) as [-> Hm]. apply lookups_phi in E. destruct E as [-> Hm'].
      split; [reflexivity|]. intros l Hl. cbn in Hl. apply in_app_or in Hl. destruct Hl; auto.
  Qed.
  Lemma lookupss_ok net : (forall l, In l (List.concat net) -> mapped l) ->
    lookupss (mapping flat) net = Ok (map (map phi) net).
  Proof.
    induction net as [|ls r IH]; intros H; [reflexivity|]. cbn [lookupss map].
    rewrite lookups_ok by (intros; apply H; cbn; apply in_or_app; auto).
    cbn [rbind]. rewrite IH by (intros; apply H; cbn; apply in_or_app; auto). reflexivity.
  Qed.

  (** the default output order is the documented one *)
  Lemma default_out o u : NoDup u -> (forall z, In z u <-> exists l, mapped l /\ z = phi l) ->
    NoDup o -> (forall l, In l o <-> In l flat /\ Open l) -> StronglySorted out_before o ->
    sort Z.geb (filter (fun z => (z <? 0)%Z) u) = map phi o.
  Proof.
    intros Nu Hu No Ho So.
    assert (o = rev ns) as ->.
    { apply (sorted_unique out_before_anti); [exact So | apply ns_sorted|].
      apply NoDup_Permutation; [exact No | apply NoDup_rev, NoDup_ns|].
      intros l. rewrite <- in_rev, In_ns. apply Ho. }
    apply (@sorted_unique _ (fun a b => Z.geb a b = true)).
    - intros x y. rewrite !Z.geb_le. lia.
    - apply sort_sorted; intros *; rewrite !Z.geb_le; lia.
    - apply StronglySorted_map. rewrite <- (rev_involutive ns) at 1.
      assert (StronglySorted (fun x y => Z.leb (phi x) (phi y) = true) ns) as S.
      { assert (forall k, StronglySorted (fun i j => i <= j) (seq k (List.length ns))) as Sq.
        { generalize (List.length ns) as n. induction n as [|n IH]; intros k; cbn; constructor; [apply IH|].
          apply Forall_forall. intros j Hj. apply in_seq in Hj. lia. }
        assert (ns = map (fun i => nth i ns (LInt 0)) (seq 0 (List.length ns))) as E by (symmetry; apply gather_seq).
        rewrite E. apply StronglySorted_map.
        eapply StronglySorted_impl; [|apply Sq]. cbn beta. intros i j Hi Hj Hle.
        apply in_seq in Hi, Hj.
        rewrite !phi_neg by (apply nth_In; lia). rewrite !index_of_nth by (try apply NoDup_ns; lia).
        apply Z.leb_le. lia. }
      rewrite rev_involutive. apply StronglySorted_rev in S.
      eapply StronglySorted_impl; [|exact S]. cbn beta. intros x y _ _ H. rewrite Z.geb_leb. exact H.
    - rewrite sort_perm. apply NoDup_Permutation.
      + apply NoDup_filter, Nu.
      + apply NoDup_map_in; [|apply NoDup_rev, NoDup_ns].
        intros a b Ha Hb. apply in_rev in Ha, Hb. apply In_ns in Ha, Hb.
        apply phi_inj; (split; [tauto|]); intros ->; destruct Ha as [_ O], Hb as [_ O']; inversion O; inversion O'; lia.
      + intros z. rewrite filter_In, Z.ltb_lt, Hu, in_map_iff. split.
        * intros [(l & Hm & ->) Hz]. exists l. split; [reflexivity|]. rewrite <- in_rev.
          destruct (phi_sign Hm) as [[O S]|[O S]]; [|lia]. apply In_ns. destruct Hm. auto.
        * intros (l & <- & Hl). apply in_rev in Hl. apply In_ns in Hl. destruct Hl as [Hl O].
          assert (mapped l) as Hm by (split; [exact Hl|]; intros ->; inversion O; lia).
          split; [eauto|]. destruct (phi_sign Hm) as [[_ S]|[? _]]; [exact S | tauto].
  Qed.
End Mapping.

(** ** Einstein sums under renaming of labels *)
Section Rename.
  Context {R : csr}.
  Variables (L K : Type).
  Variable Leq : forall x y : L, {x = y} + {x <> y}.
  Variable Keq : forall x y : K, {x = y} + {x <> y}.
  Variable f : L -> K.
  Variable S : L -> Prop.
  Hypothesis finj : forall x y, S x -> S y -> f x = f y -> x = y.

  Lemma binds_rename ls : forall (a : L -> nat) (b : K -> nat) vs,
    (forall x, In x ls -> S x) -> (forall x, S x -> b (f x) = a x) ->
    forall x, S x -> binds Keq b (map f ls) vs (f x) = binds Leq a ls vs x.
  Proof.
    induction ls as [|l r IH]; intros a b vs Hs Hab x Hx; destruct vs as [|v vs]; cbn; auto.
    apply IH; [intros; apply Hs; right; assumption | | exact Hx].
    intros y Hy. unfold upd. destruct (Keq (f y) (f l)) as [e|e], (Leq y l) as [e'|e']; auto.
    - exfalso. apply e'. apply finj; [exact Hy | apply Hs; left; reflexivity | exact e].
    - exfalso. apply e. congruence.
  Qed.

  Definition rename (x : Einsum.factor L R) : Einsum.factor K R := (fst x, map f (snd x)).

  Lemma einsum_rename (dim : L -> nat) (dim' : K -> nat) ls (net : list (Einsum.factor L R)) a b :
    (forall x, In x ls -> S x) -> (forall x, In x (net_labels net) -> S x) ->
    (forall x, S x -> dim' (f x) = dim x) -> (forall x, S x -> b (f x) = a x) ->
    einsum Keq dim' (map f ls) (map rename net) b = einsum Leq dim ls net a.
  Proof.
    intros Hl Hn Hd Hab. unfold einsum. rewrite !esum_idxs.
    assert (map dim' (map f ls) = map dim ls) as ->.
    { rewrite map_map. apply map_ext_in. intros x Hx. apply Hd, Hl, Hx. }
    apply lsum_ext. intros vs _.
    unfold netprod. revert Hn. induction net as [|x r IH]; intros Hn; [reflexivity|].
    cbn [map]. rewrite !lprod_cons. f_equal.
    - unfold fval, rename. cbn [fst snd]. f_equal. rewrite map_map. apply map_ext_in.
      intros y Hy. apply binds_rename; auto. apply Hn. cbn. apply in_or_app. auto.
    - apply IH. intros y Hy. apply Hn. cbn. apply in_or_app. auto.
  Qed.
End Rename.

Lemma count_map_inj A B (dA : forall x y : A, {x = y} + {x <> y}) (dB : forall x y : B, {x = y} + {x <> y})
  (f : A -> B) l x : (forall y, In y l -> f y = f x -> y = x) ->
  count_occ dB (map f l) (f x) = count_occ dA l x.
Proof.
  induction l as [|y r IH]; intros H; cbn; [reflexivity|].
  rewrite IH by (intros; apply H; [right|]; assumption).
  destruct (dB (f y) (f x)) as [e|e], (dA y x) as [e'|e']; try reflexivity.
  - exfalso. apply e', H; [left; reflexivity | exact e].
  - exfalso. apply e. congruence.
Qed.

(** ** ncon *)
Section Top.
  Context {R : csr}.
  Variable iter : list Z -> list Z.
  Hypothesis iter_perm : forall l, Permutation (iter l) l.
  Variable dim : label -> nat.

  Definition con_spec (ns : list (list label)) (con : option (list label)) : Prop :=
    match con with None | Some [] => True | Some c => lists_closed ns c end.

  (** inverse of the renaming *)
  Definition unphi (flat : list label) (z : Z) : label :=
    match find (fun l => Z.eqb (phi flat l) z) flat with Some l => l | None => LInt 0 end.
  Lemma unphi_phi flat l : (forall l, In l flat -> mapped flat l) -> In l flat -> unphi flat (phi flat l) = l.
  Proof.
    intros Hm Hl. unfold unphi.
    destruct (find (fun l' => Z.eqb (phi flat l') (phi flat l)) flat) as [l'|] eqn:E.
    - apply find_some in E. destruct E as [Hin E]. apply Z.eqb_eq in E.
      apply (phi_inj (flat := flat)); auto.
    - exfalso. apply (find_none _ _ E) in Hl. rewrite Z.eqb_refl in Hl. discriminate.
  Qed.

  Lemma flat_of_combine (ts : list (tensor R)) (ns : list (list Z)) :
    List.length ts = List.length ns -> flat_of (combine ts ns) = List.concat ns.
  Proof.
    revert ns. induction ts as [|t ts IH]; intros [|n ns] E; try discriminate; [reflexivity|].
    cbn. f_equal. apply IH. cbn in E. congruence.
  Qed.
  Lemma net_labels_network (ts : list (tensor R)) ns :
    List.length ts = List.length ns -> net_labels (network ts ns) = List.concat ns.
  Proof.
    revert ns. induction ts as [|t ts IH]; intros [|n ns] E; try discriminate; [reflexivity|].
    cbn. f_equal. apply IH. cbn in E. congruence.
  Qed.
  Lemma combine_map_r A B C (f : B -> C) (l : list A) (m : list B) :
    combine l (map f m) = map (fun x => (fst x, f (snd x))) (combine l m).
  Proof. revert m. induction l as [|x l IH]; intros [|y m]; cbn; congruence. Qed.
  Lemma concat_map_map A B (f : A -> B) ls : List.concat (map (map f) ls) = map f (List.concat ls).
  Proof. induction ls as [|x r IH]; cbn; [reflexivity|]. rewrite map_app, IH. reflexivity. Qed.

  Lemma lookups_nofuel m ls : lookups m ls <> Fuel.
  Proof.
    induction ls as [|l r IH]; cbn [lookups]; [discriminate|]. destruct (lookup m l); [|discriminate].
    destruct (lookups m r); cbn; congruence.
  Qed.
  Lemma lookupss_nofuel m ns : lookupss m ns <> Fuel.
  Proof.
    induction ns as [|l r IH]; cbn [lookupss]; [discriminate|].
    pose proof (@lookups_nofuel m l). destruct (lookups m l); cbn [rbind]; try congruence.
    destruct (lookupss m r); cbn; congruence.
  Qed.

  Theorem ncon_correct check (ts : list (tensor R)) ns con out o :
    sized dim ts ns -> ordinary ns -> con_spec ns con -> out_spec ns out o ->
    match ncon iter check ts ns con out with
    | Ok t => is_value dim ts ns o t
    | Raise => (check = true /\ check_network ns (map shape ts) (none_if_empty con) (none_if_empty out) = false)
        \/ (exists l, In l (List.concat ns) /\ ~ label_ok l)
        \/ ns = [] \/ ~ pairwise ns
    | Fuel => False
    end.
  Proof.
    intros [Hlen Hfit] Ord Hcon [Hopen Hout]. unfold ncon.
    set (con' := none_if_empty con). set (out' := none_if_empty out).
    destruct (negb check || check_network ns (map shape ts) con' out') eqn:Ec; cbn [guard].
    2:{ left. apply orb_false_iff in Ec. destruct Ec as [E1 E2]. destruct check; [auto | discriminate]. }
    set (flat := List.concat ns) in *.
    destruct (forallb (fun l => negb (empty_str l)) flat) eqn:Ee; cbn [guard].
    2:{ right. left. assert (exists l, In l flat /\ empty_str l = true) as (l & Hl & E).
        { clear -Ee. induction flat as [|x r IH]; cbn in Ee; [discriminate|]. apply andb_false_iff in Ee. destruct Ee as [E|E].
          - exists x. split; [left; reflexivity|]. destruct (empty_str x); [reflexivity | discriminate].
          - destruct (IH E) as (l & ? & ?). exists l. split; [right|]; assumption. }
        exists l. split; [exact Hl|]. destruct l as [|[|]]; try discriminate. cbn.
        intros [[W _]|(r & W & _)]; [congruence | discriminate]. }
    destruct (in_dec label_dec (LInt 0) flat) as [Hz|Hz].
    { pose proof (@lookupss_nofuel (mapping flat) ns) as NF.
      destruct (lookupss (mapping flat) ns) as [nsz| |] eqn:El; cbn [rbind]; [| |congruence].
      - apply lookupss_phi in El. destruct El as [_ El]. destruct (El _ Hz). congruence.
      - right. left. exists (LInt 0). split; [exact Hz|]. cbn. congruence. }
    assert (forall l, In l flat -> mapped flat l) as Hm.
    { intros l Hl. split; [exact Hl|]. congruence. }
    rewrite lookupss_ok by exact Hm. cbn [rbind]. rewrite concat_map_map. fold flat.
    assert (forall l, In l o <-> In l flat /\ Open l) as Ho by apply Hopen.
    assert (NoDup o) as No by apply Hopen.
    set (u := nodup Z.eq_dec (map (phi flat) flat)).
    assert (forall z, In z u <-> exists l, mapped flat l /\ z = phi flat l) as Hu.
    { intros z. unfold u. rewrite nodup_In, in_map_iff. split.
      - intros (l & <- & Hl). eauto.
      - intros (l & [Hl _] & ->). eauto. }
    assert (match out' with
            | None => Ok (sort Z.geb (filter (fun l => (l <? 0)%Z) u))
            | Some o0 => lookups (mapping flat) o0
            end = Ok (map (phi flat) o)) as ->.
    { destruct out as [[|x r]|]; cbn in out'; subst out'; cbv iota.
      - f_equal. apply default_out; auto. apply NoDup_nodup.
      - subst o. apply lookups_ok. intros l Hl. apply Hm, Ho, Hl.
      - f_equal. apply default_out; auto. apply NoDup_nodup. }
    cbn [rbind].
    assert (exists conz, match con' with
            | None => Ok (sort Z.leb (filter (fun l => (0 <? l)%Z) u))
            | Some o0 => lookups (mapping flat) o0
            end = Ok conz /\ NoDup conz /\ (forall z, In z conz <-> (0 < z)%Z /\ In z (map (phi flat) flat)))
      as (conz & -> & Nc & Ic).
    { assert (exists conz, Ok (sort Z.leb (filter (fun l => (0 <? l)%Z) u)) = Ok conz /\ NoDup conz /\
               (forall z, In z conz <-> (0 < z)%Z /\ In z (map (phi flat) flat))) as D.
      { eexists. split; [reflexivity|]. split; [apply NoDup_sort, NoDup_filter, NoDup_nodup|].
        intros z. rewrite In_sort, filter_In, Z.ltb_lt. unfold u. rewrite nodup_In. tauto. }
      destruct con as [[|x r]|]; cbn in con'; subst con'; cbv iota; try exact D.
      destruct Hcon as [Nc Ic]. fold flat in Ic. set (c := x :: r) in *. exists (map (phi flat) c).
      split; [apply lookups_ok; intros l Hl; apply Hm, Ic, Hl|]. split.
      - apply NoDup_map_in; [|exact Nc]. intros a b Ha Hb. apply phi_inj; apply Hm; [apply Ic, Ha | apply Ic, Hb].
      - intros z. rewrite !in_map_iff. split.
        + intros (l & <- & Hl). apply Ic in Hl. destruct Hl as [Hl Ho'].
          destruct (phi_sign (Hm _ Hl)) as [[? _]|[_ ?]]; [tauto|]. eauto.
        + intros (Hp & l & <- & Hl). exists l. split; [reflexivity|]. apply Ic. split; [exact Hl|].
          destruct (phi_sign (Hm _ Hl)) as [[_ ?]|[? _]]; [lia | assumption]. }
    cbn [rbind].
    assert (combine ts (map (map (phi flat)) ns) = map (rename (phi flat)) (network ts ns)) as Enet.
    { apply combine_map_r. }
    rewrite Enet. set (netz := map (rename (phi flat)) (network ts ns)).
    assert (flat_of netz = map (phi flat) flat) as Ef.
    { unfold netz. rewrite <- Enet, flat_of_combine by (rewrite map_length; exact Hlen). apply concat_map_map. }
    assert (Nat.eqb (List.length ts) (List.length (map (map (phi flat)) ns)) = true) as ->
      by (apply Nat.eqb_eq; rewrite map_length; exact Hlen).
    assert (forallb (fun x => Nat.eqb (rank (fst x)) (List.length (snd x))) netz = true) as ->.
    { apply forallb_forall. intros x Hx. apply in_map_iff in Hx. destruct Hx as (y & <- & Hy). apply Nat.eqb_eq.
      cbn [fst snd rename]. rewrite map_length. unfold rank. rewrite (Hfit _ Hy), map_length. reflexivity. }
    cbn [andb guard].
    assert (forall y, In y (network ts ns) -> In (snd y) ns) as Hns.
    { intros [t ls] Hy. eapply in_combine_r, Hy. }
    assert (forall y l, In y (network ts ns) -> In l (snd y) -> In l flat) as Hin.
    { intros y l Hy Hl. unfold flat. apply in_concat. exists (snd y). split; [apply Hns, Hy | exact Hl]. }
    assert (forall l, In l flat -> zcount (map (phi flat) flat) (phi flat l) = count_occ label_dec flat l) as Cnt.
    { intros l Hl. apply count_map_inj. intros y Hy. apply phi_inj; auto. }
    set (dimz := fun z => dim (unphi flat z)).
    assert (forall l, In l flat -> dimz (phi flat l) = dim l) as Hd.
    { intros l Hl. unfold dimz. rewrite unphi_phi; auto. }
    assert (well dimz netz) as W.
    { constructor.
      - intros x Hx. apply in_map_iff in Hx. destruct Hx as (y & <- & Hy). unfold fits. cbn [fst snd rename].
        rewrite (Hfit _ Hy), map_map. apply map_ext_in. intros l Hl. symmetry. apply Hd. eapply Hin; eassumption.
      - rewrite Ef. intros z Hz'. apply in_map_iff in Hz'. destruct Hz' as (l & <- & Hl).
        destruct (phi_sign (Hm _ Hl)) as [[_ ?]|[_ ?]]; lia.
      - rewrite Ef. intros x z Hx Hzx. apply in_map_iff in Hx. destruct Hx as (y & <- & Hy). cbn [snd rename] in *.
        apply in_map_iff in Hzx. destruct Hzx as (l & <- & Hl).
        assert (zcount (map (phi flat) (snd y)) (phi flat l) = count_occ label_dec (snd y) l) as ->.
        { apply count_map_inj. intros l' Hl'. apply phi_inj; apply Hm; eapply Hin; eassumption. }
        rewrite Cnt by (eapply Hin; eassumption).
        destruct (Ord _ _ (Hns _ Hy) Hl) as [E|(E & Op & E2)]; [left; exact E | right].
        split; [exact E|]. split; [|exact E2]. destruct (phi_sign (Hm _ (Hin _ _ Hy Hl))) as [[? _]|[_ ?]]; [tauto | assumption]. }
    assert (NoDup (map (phi flat) o)) as Noz.
    { apply NoDup_map_in; [|exact No]. intros a b Ha Hb. apply phi_inj; apply Hm; [apply Ho, Ha | apply Ho, Hb]. }
    assert (forall z, In z (map (phi flat) o) <-> (z < 0)%Z /\ In z (flat_of netz)) as Ioz.
    { intros z. rewrite Ef, !in_map_iff. split.
      - intros (l & <- & Hl). apply Ho in Hl. destruct Hl as [Hl Op].
        destruct (phi_sign (Hm _ Hl)) as [[_ ?]|[? _]]; [|tauto]. eauto.
      - intros (Hneg & l & <- & Hl). exists l. split; [reflexivity|]. apply Ho. split; [exact Hl|].
        destruct (phi_sign (Hm _ Hl)) as [[? _]|[_ ?]]; [assumption | lia]. }
    rewrite <- Ef in Ic.
    pose proof (@jittable_ok R iter iter_perm dimz netz conz (map (phi flat) o) W Nc Ic Noz Ioz) as J.
    destruct (jittable_ncon iter netz conz (map (phi flat) o)) as [t| |].
    - destruct J as [Js Jv]. split.
      + rewrite Js, map_map. apply map_ext_in. intros l Hl. apply Hd, Ho, Hl.
      + intros cl a [Ncl Icl] Ra. fold flat in Icl.
        set (az := fun z => a (unphi flat z)).
        assert (forall l, In l flat -> az (phi flat l) = a l) as Ha by (intros l Hl; unfold az; rewrite unphi_phi; auto).
        assert (map a o = map az (map (phi flat) o)) as ->.
        { rewrite map_map. apply map_ext_in. intros l Hl. symmetry. apply Ha, Ho, Hl. }
        rewrite Jv.
        * transitivity (einsum Z.eq_dec dimz (map (phi flat) cl) netz az).
          -- apply einsum_perm_labels; [exact Nc|]. apply NoDup_Permutation; [exact Nc| |].
             ++ apply NoDup_map_in; [|exact Ncl]. intros x y Hx Hy. apply phi_inj; apply Hm; [apply Icl, Hx | apply Icl, Hy].
             ++ intros z. rewrite Ic, Ef, !in_map_iff. split.
                ** intros (Hp & l & <- & Hl). exists l. split; [reflexivity|]. apply Icl. split; [exact Hl|].
                   destruct (phi_sign (Hm _ Hl)) as [[_ ?]|[? _]]; [lia | assumption].
                ** intros (l & <- & Hl). apply Icl in Hl. destruct Hl as [Hl Op].
                   destruct (phi_sign (Hm _ Hl)) as [[? _]|[_ ?]]; [tauto|]. eauto.
          -- apply (@einsum_rename R _ _ label_dec Z.eq_dec (phi flat) (fun l => In l flat)).
             ++ intros x y Hx Hy. apply phi_inj; auto.
             ++ intros x Hx. apply Icl, Hx.
             ++ rewrite net_labels_network by exact Hlen. auto.
             ++ exact Hd.
             ++ exact Ha.
        * intros z Hzo. apply in_map_iff in Hzo. destruct Hzo as (l & <- & Hl).
          rewrite Ha, Hd by (apply Ho, Hl). apply Ra, Hl.
    - destruct J as [E|[(z & Hp & Hc)|(z & z' & x & Hx & Hzx & Hz'x & Hp & Hp' & Q & Q')]].
      + right. right. left. unfold netz in E. apply map_eq_nil in E. destruct ts, ns; try discriminate; reflexivity.
      + right. right. right. intros [P _]. rewrite Ef in Hc.
        assert (In z (map (phi flat) flat)) as Hin' by (apply zcount_in; lia).
        apply in_map_iff in Hin'. destruct Hin' as (l & <- & Hl). rewrite Cnt in Hc by exact Hl.
        destruct (phi_sign (Hm _ Hl)) as [[_ ?]|[Op _]]; [lia|]. specialize (P l Op). fold flat in P. lia.
      + right. right. right. intros [_ P]. rewrite Ef in Q, Q'.
        assert (In z' (map (phi flat) flat)) as Hin' by (apply zcount_in; lia).
        apply in_map_iff in Hx. destruct Hx as (y & <- & Hy). cbn [snd rename] in *.
        apply in_map_iff in Hzx. destruct Hzx as (l & <- & Hl).
        apply in_map_iff in Hin'. destruct Hin' as (l' & <- & Hl').
        assert (In l flat) as Hlf by (eapply Hin; eassumption).
        rewrite Cnt in Q, Q' by assumption.
        apply Hz'x, in_map, (P (snd y) l l'); auto.
        * destruct (phi_sign (Hm _ Hlf)) as [[_ ?]|[Op _]]; [lia | exact Op].
        * destruct (phi_sign (Hm _ Hl')) as [[_ ?]|[Op _]]; [lia | exact Op].
    - exact J.
  Qed.
End Top.
