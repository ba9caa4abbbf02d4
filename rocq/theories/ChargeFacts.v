(** * ChargeFacts: charge types are abelian groups; BaseCharge operations act on the represented list *)
From Coq Require Import ZArith Eqdep_dec Sorting.Sorted.
From Verif Require Import Prelude Res Charge.
Set Implicit Arguments.
Unset Strict Implicit.

(** ** int16 arithmetic *)
Section W16.
  Open Scope Z_scope.
  Lemma w16_range z : -32768 <= w16 z <= 32767.
  Proof. unfold w16. pose proof (Z.mod_pos_bound (z + 32768) 65536). lia. Qed.
  Lemma w16_small z : -32768 <= z <= 32767 -> w16 z = z.
  Proof. intros. unfold w16. rewrite Z.mod_small; lia. Qed.
  Lemma w16_cong z : exists k, w16 z = z + 65536 * k.
  Proof.
    unfold w16. exists (- ((z + 32768) / 65536)).
    pose proof (Z.div_mod (z + 32768) 65536). lia.
  Qed.
  Lemma w16_eq a b k : a = b + 65536 * k -> w16 a = w16 b.
  Proof.
    intros ->. unfold w16. f_equal.
    replace (b + 65536 * k + 32768) with (b + 32768 + k * 65536) by ring.
    apply Z.mod_add. lia.
  Qed.
  Lemma w16_w16_l a b : w16 (w16 a + b) = w16 (a + b).
  Proof. destruct (w16_cong a) as [k ->]. apply w16_eq with k. ring. Qed.
  Lemma w16_w16_r a b : w16 (a + w16 b) = w16 (a + b).
  Proof. destruct (w16_cong b) as [k ->]. apply w16_eq with k. ring. Qed.

  Lemma ok1_U1 a : ok1 U1 a = true <-> -32768 <= a <= 32767.
  Proof. cbn. rewrite andb_true_iff, !Z.leb_le. tauto. Qed.
  Lemma ok1_Z2 a : ok1 Z2 a = true <-> a = 0 \/ a = 1.
  Proof. cbn. rewrite orb_true_iff, !Z.eqb_eq. tauto. Qed.
  Lemma ok1_ZN n a : ok1 (ZN n) a = true <-> 0 <= a < n.
  Proof. cbn. rewrite andb_true_iff, Z.leb_le, Z.ltb_lt. tauto. Qed.
  Lemma ok_sym_ZN n : ok_sym (ZN n) = true -> 2 <= n <= 16384.
  Proof. cbn. rewrite andb_true_iff, !Z.leb_le. tauto. Qed.

  Lemma fuse1_ok s a b : ok_sym s = true -> ok1 s a = true -> ok1 s b = true -> ok1 s (fuse1 s a b) = true.
  Proof.
    destruct s as [| |n]; intros Hs Ha Hb.
    - apply ok1_U1, w16_range.
    - rewrite ok1_Z2 in *. destruct Ha as [-> | ->], Hb as [-> | ->]; cbn; auto.
    - apply ok_sym_ZN in Hs. apply ok1_ZN. cbn. apply Z.mod_pos_bound. lia.
  Qed.
  Lemma dual1_ok s a : ok_sym s = true -> ok1 s a = true -> ok1 s (dual1 s a) = true.
  Proof.
    destruct s as [| |n]; intros Hs Ha.
    - apply ok1_U1, w16_range.
    - exact Ha.
    - apply ok_sym_ZN in Hs. apply ok1_ZN. cbn. apply Z.mod_pos_bound. lia.
  Qed.
  Lemma id1_ok s : ok_sym s = true -> ok1 s (id1 s) = true.
  Proof.
    destruct s as [| |n]; intros Hs; try reflexivity.
    apply ok_sym_ZN in Hs. apply ok1_ZN. unfold id1. lia.
  Qed.
  Lemma fuse1_comm s a b : fuse1 s a b = fuse1 s b a.
  Proof. destruct s; cbn; [|apply Z.lxor_comm|]; rewrite (Z.add_comm a b); reflexivity. Qed.
  (** in range, the int16 sum of two ZN charges does not wrap *)
  Lemma fuse1_ZN n a b : ok_sym (ZN n) = true -> ok1 (ZN n) a = true -> ok1 (ZN n) b = true ->
    fuse1 (ZN n) a b = (a + b) mod n.
  Proof.
    intros Hs Ha Hb. apply ok_sym_ZN in Hs. rewrite ok1_ZN in Ha, Hb. cbn.
    rewrite w16_small; [reflexivity | lia].
  Qed.
  Lemma fuse1_assoc s a b c : ok_sym s = true -> ok1 s a = true -> ok1 s b = true -> ok1 s c = true ->
    fuse1 s a (fuse1 s b c) = fuse1 s (fuse1 s a b) c.
  Proof.
    destruct s as [| |n]; intros Hs Ha Hb Hc.
    - cbn. rewrite w16_w16_r, w16_w16_l. f_equal. ring.
    - cbn. symmetry. apply Z.lxor_assoc.
    - rewrite (@fuse1_ZN n a), (@fuse1_ZN n b c), (@fuse1_ZN n a b), fuse1_ZN; auto using fuse1_ok.
      + apply ok_sym_ZN in Hs. rewrite Z.add_mod_idemp_r, Z.add_mod_idemp_l by lia. f_equal. ring.
      + rewrite <- fuse1_ZN by assumption. apply fuse1_ok; assumption.
  Qed.
  Lemma fuse1_id s a : ok_sym s = true -> ok1 s a = true -> fuse1 s (id1 s) a = a.
  Proof.
    destruct s as [| |n]; intros Hs Ha.
    - rewrite ok1_U1 in Ha. cbn. apply w16_small. lia.
    - reflexivity.
    - rewrite fuse1_ZN; auto using id1_ok. unfold id1. rewrite ok1_ZN in Ha. cbn [Z.add].
      apply Z.mod_small. lia.
  Qed.
  Lemma fuse1_dual s a : ok_sym s = true -> ok1 s a = true -> fuse1 s (dual1 s a) a = id1 s.
  Proof.
    destruct s as [| |n]; intros Hs Ha.
    - cbn. rewrite w16_w16_l. replace (- a + a) with 0 by ring. reflexivity.
    - rewrite ok1_Z2 in Ha. destruct Ha as [-> | ->]; reflexivity.
    - rewrite fuse1_ZN; auto using dual1_ok. cbn [dual1]. apply ok_sym_ZN in Hs. rewrite ok1_ZN in Ha.
      rewrite w16_small by lia. rewrite Z.add_mod_idemp_l by lia.
      replace (n - a + a) with n by ring. apply Z.mod_same. lia.
  Qed.
End W16.

(** ** rows *)
Lemma ok_row_inv s ss a : ok_row (s :: ss) a = true ->
  exists x r, a = x :: r /\ ok1 s x = true /\ ok_row ss r = true.
Proof. destruct a as [|x r]; cbn; [discriminate|]. rewrite andb_true_iff. intros [H1 H2]. eauto. Qed.
Lemma ok_row_nil a : ok_row [] a = true -> a = [].
Proof. destruct a; [reflexivity | discriminate]. Qed.

Ltac rows :=
  repeat match goal with
  | H : ok_row [] ?a = true |- _ => apply ok_row_nil in H; subst
  | H : ok_row (_ :: _) ?a = true |- _ =>
      let x := fresh "x" in let r := fresh "r" in
      apply ok_row_inv in H; destruct H as (x & r & -> & ? & ?)
  end.

Section Rows.
  Variable ss : list sym.
  Hypothesis Hss : forallb ok_sym ss = true.

  Lemma fuse_row_ok a b : ok_row ss a = true -> ok_row ss b = true -> ok_row ss (fuse_row ss a b) = true.
  Proof.
    revert a b. induction ss as [|s r IH]; intros a b Ha Hb; rows; [reflexivity|].
    cbn in Hss. apply andb_true_iff in Hss. destruct Hss. cbn.
    rewrite fuse1_ok, IH; auto.
  Qed.
  Lemma dual_row_ok a : ok_row ss a = true -> ok_row ss (dual_row ss a) = true.
  Proof.
    revert a. induction ss as [|s r IH]; intros a Ha; rows; [reflexivity|].
    cbn in Hss. apply andb_true_iff in Hss. destruct Hss. cbn.
    rewrite dual1_ok, IH; auto.
  Qed.
  Lemma id_row_ok : ok_row ss (id_row ss) = true.
  Proof.
    induction ss as [|s r IH]; [reflexivity|].
    cbn in Hss. apply andb_true_iff in Hss. destruct Hss. cbn [id_row map ok_row].
    rewrite id1_ok by assumption. apply IH. assumption.
  Qed.
  Lemma fuse_row_comm a b : fuse_row ss a b = fuse_row ss b a.
  Proof.
    clear Hss. revert a b. induction ss as [|s r IH]; intros [|x a] [|y b]; try reflexivity.
    cbn. rewrite fuse1_comm, IH. reflexivity.
  Qed.
  Lemma fuse_row_assoc a b c : ok_row ss a = true -> ok_row ss b = true -> ok_row ss c = true ->
    fuse_row ss a (fuse_row ss b c) = fuse_row ss (fuse_row ss a b) c.
  Proof.
    revert a b c. induction ss as [|s r IH]; intros a b c Ha Hb Hc; rows; [reflexivity|].
    cbn in Hss. apply andb_true_iff in Hss. destruct Hss. cbn.
    rewrite fuse1_assoc, IH; auto.
  Qed.
  Lemma fuse_row_id a : ok_row ss a = true -> fuse_row ss (id_row ss) a = a.
  Proof.
    revert a. induction ss as [|s r IH]; intros a Ha; rows; [reflexivity|].
    cbn in Hss. apply andb_true_iff in Hss. destruct Hss. cbn [id_row map fuse_row].
    rewrite fuse1_id by assumption. f_equal. apply IH; assumption.
  Qed.
  Lemma fuse_row_dual a : ok_row ss a = true -> fuse_row ss (dual_row ss a) a = id_row ss.
  Proof.
    revert a. induction ss as [|s r IH]; intros a Ha; rows; [reflexivity|].
    cbn in Hss. apply andb_true_iff in Hss. destruct Hss. cbn [id_row map fuse_row dual_row].
    rewrite fuse1_dual by assumption. f_equal. apply IH; assumption.
  Qed.

  (** ** rows of a list of charge types form an instance of [chg], for any total order on rows *)
  Definition row := {a : list Z | ok_row ss a = true}.
  Lemma row_eq (a b : row) : proj1_sig a = proj1_sig b -> a = b.
  Proof.
    destruct a as [a Ha], b as [b Hb]. cbn. intros ->. f_equal.
    apply UIP_dec. apply Bool.bool_dec.
  Qed.
  Definition row_op (a b : row) : row := exist _ _ (fuse_row_ok (proj2_sig a) (proj2_sig b)).
  Definition row_inv (a : row) : row := exist _ _ (dual_row_ok (proj2_sig a)).
  Definition row_id : row := exist _ _ id_row_ok.
  Definition row_dec (a b : row) : {a = b} + {a <> b}.
  Proof.
    destruct (list_eq_dec Z.eq_dec (proj1_sig a) (proj1_sig b)) as [E|N].
    - left. apply row_eq, E.
    - right. intros E. apply N. rewrite E. reflexivity.
  Defined.

  Section Order.
    Variable leb : list Z -> list Z -> bool.
    Hypothesis total : forall x y, leb x y = true \/ leb y x = true.
    Hypothesis trans : forall x y z, leb x y = true -> leb y z = true -> leb x z = true.
    Hypothesis anti : forall x y, ok_row ss x = true -> ok_row ss y = true -> leb x y = true -> leb y x = true -> x = y.
    Definition row_chg : chg.
    Proof.
      refine (@Chg row row_op row_inv row_id row_dec (fun a b => leb (proj1_sig a) (proj1_sig b)) _ _ _ _ _ _ _).
      - intros [x Hx] [y Hy] [z Hz]. apply row_eq. cbn. apply fuse_row_assoc; assumption.
      - intros [x Hx] [y Hy]. apply row_eq. cbn. apply fuse_row_comm.
      - intros [x Hx]. apply row_eq. cbn. apply fuse_row_id. assumption.
      - intros [x Hx]. apply row_eq. cbn. apply fuse_row_dual. assumption.
      - intros x y. apply total.
      - intros x y z. apply trans.
      - intros [x Hx] [y Hy] H1 H2. apply row_eq. cbn in *. apply anti; assumption.
    Defined.
  End Order.
End Rows.

(** ** group facts *)
Section Grp.
  Context {G : chg}.
  Implicit Types x y z : G.
  Lemma qidr x : qop x qid = x.
  Proof. rewrite qcomm. apply qidl. Qed.
  Lemma qinvr x : qop x (qinv x) = qid.
  Proof. rewrite qcomm. apply qinvl. Qed.
  Lemma qcancel_l x y z : qop x y = qop x z -> y = z.
  Proof.
    intros H. rewrite <- (qidl y), <- (qidl z), <- (qinvl x), <- !qassoc, H. reflexivity.
  Qed.
  Lemma qcancel_r x y z : qop y x = qop z x -> y = z.
  Proof. rewrite (qcomm y), (qcomm z). apply qcancel_l. Qed.
  Lemma qinv_unique x y : qop x y = qid -> x = qinv y.
  Proof. intros H. apply (@qcancel_r y). rewrite H, qinvl. reflexivity. Qed.
  Lemma qinv_op x y : qinv (qop x y) = qop (qinv x) (qinv y).
  Proof.
    symmetry. apply qinv_unique.
    rewrite (qcomm (qinv x) (qinv y)), <- qassoc, (qassoc (qinv x) x y), qinvl, qidl, qinvl.
    reflexivity.
  Qed.
  Lemma qinv_inv x : qinv (qinv x) = x.
  Proof. symmetry. apply qinv_unique, qinvr. Qed.
  Lemma qinv_id : qinv (qid : G) = qid.
  Proof. symmetry. apply qinv_unique, qidl. Qed.
  Lemma qinv_inj x y : qinv x = qinv y -> x = y.
  Proof. intros H. rewrite <- (qinv_inv x), H. apply qinv_inv. Qed.
  Lemma qop_eq_id x y : qop x y = qid <-> x = qinv y.
  Proof. split; [apply qinv_unique | intros ->; apply qinvl]. Qed.
End Grp.

(** ** numpy's unique and intersect1d *)
Section NP.
  Context {G : chg}.
  Implicit Types (l a b : list G) (x : G) (c : bc G).

  Lemma In_uniq x l : In x (uniq l) <-> In x l.
  Proof. unfold uniq. rewrite In_sort. apply nodup_In. Qed.
  Lemma NoDup_uniq l : NoDup (uniq l).
  Proof. apply NoDup_sort, NoDup_nodup. Qed.
  Lemma uniq_sorted l : StronglySorted (fun x y : G => qleb x y = true) (uniq l).
  Proof. apply sort_sorted; [apply qtotal | apply qtrans]. Qed.
  (** the sorted unique values only depend on the set of values *)
  Lemma uniq_ext l l' : (forall x, In x l <-> In x l') -> uniq l = uniq l'.
  Proof.
    intros H. eapply sorted_unique; [| apply uniq_sorted | apply uniq_sorted |].
    - intros x y. apply qanti.
    - apply NoDup_Permutation; try apply NoDup_uniq. intros x. rewrite !In_uniq. apply H.
  Qed.
  Lemma In_nuniq i (l : list nat) : In i (nuniq l) <-> In i l.
  Proof. unfold nuniq. rewrite In_sort. apply nodup_In. Qed.
  Lemma NoDup_nuniq (l : list nat) : NoDup (nuniq l).
  Proof. apply NoDup_sort, NoDup_nodup. Qed.
  Lemma nuniq_seq n (ls : list nat) : (forall i, In i ls <-> i < n) -> nuniq ls = seq 0 n.
  Proof.
    intros H. apply (@sorted_unique _ (fun i j : nat => Nat.leb i j = true)).
    - intros x y. rewrite !Nat.leb_le. lia.
    - apply sort_sorted; intros; rewrite ?Nat.leb_le in *; lia.
    - clear H. assert (forall k, StronglySorted (fun i j : nat => Nat.leb i j = true) (seq k n)) as Hs; [|apply Hs].
      induction n as [|m IH]; intros k; cbn; constructor; auto.
      apply Forall_forall. intros y Hy. apply in_seq in Hy. apply Nat.leb_le. lia.
    - apply NoDup_Permutation; [apply NoDup_nuniq | apply seq_NoDup |].
      intros i. rewrite In_nuniq, in_seq, H. lia.
  Qed.

  Lemma qmem_In x l : qmem x l = true <-> In x l.
  Proof. unfold qmem. destruct (in_dec qdec x l); split; auto; discriminate. Qed.
  Lemma In_isect x a b : In x (isect a b) <-> In x a /\ In x b.
  Proof. unfold isect. rewrite filter_In, In_uniq, qmem_In. tauto. Qed.
  Lemma NoDup_isect a b : NoDup (isect a b).
  Proof. apply NoDup_filter, NoDup_uniq. Qed.
  Lemma isect_ext a a' b b' : (forall x, In x a <-> In x a') -> (forall x, In x b <-> In x b') -> isect a b = isect a' b'.
  Proof.
    intros Ha Hb. unfold isect. rewrite (uniq_ext Ha). apply filter_ext. intros x.
    destruct (qmem x b) eqn:E, (qmem x b') eqn:E'; try reflexivity;
      rewrite <- ?not_true_iff_false, ?qmem_In, ?Hb in *; tauto.
  Qed.

  (** ** representation invariant: labels in range, no repeated and no unused unique charge *)
  Definition bc_ok c : Prop :=
    match c with
    | Raw _ => True
    | Lab u ls => NoDup u /\ (forall i, In i ls <-> i < length u)
    end.

  Lemma gather_index (u : list G) l : (forall x, In x l -> In x u) ->
    gather qid u (map (fun x => index_of qdec x u) l) = l.
  Proof.
    intros H. unfold gather. rewrite map_map. rewrite <- (map_id l) at 2. apply map_ext_in.
    intros x Hx. apply nth_index_of, H, Hx.
  Qed.
  Lemma index_gather (u : list G) ls : NoDup u -> (forall i, In i ls -> i < length u) ->
    map (fun x => index_of qdec x u) (gather qid u ls) = ls.
  Proof.
    intros Hu H. unfold gather. rewrite map_map. rewrite <- (map_id ls) at 2. apply map_ext_in.
    intros i Hi. apply index_of_nth; auto.
  Qed.

  (** reading a charge through its unique charges and labels gives the represented list *)
  Lemma rep_uniques c : rep c = gather qid (uniques c) (labels c).
  Proof.
    destruct c as [l|u ls]; [|reflexivity]. cbn. unfold inverse. symmetry. apply gather_index.
    intros x. apply In_uniq.
  Qed.
  Lemma labels_index c : bc_ok c -> labels c = map (fun x => index_of qdec x (uniques c)) (rep c).
  Proof.
    destruct c as [l|u ls]; [reflexivity|]. intros [Hu H]. cbn. symmetry. apply index_gather; auto.
    intros i. apply H.
  Qed.
  Lemma NoDup_uniques c : bc_ok c -> NoDup (uniques c).
  Proof. destruct c; cbn; [intros _; apply NoDup_uniq | tauto]. Qed.
  Lemma In_uniques c x : bc_ok c -> (In x (uniques c) <-> In x (rep c)).
  Proof.
    destruct c as [l|u ls]; cbn; [intros _; apply In_uniq|]. intros [Hu H]. rewrite In_gather. split.
    - intros Hx. destruct (In_nth _ _ qid Hx) as (i & Hi & E). exists i. rewrite H. auto.
    - intros (i & Hi & ->). apply nth_In, H, Hi.
  Qed.
  Lemma bdim_rep c : bdim c = length (rep c).
  Proof. destruct c; cbn; [reflexivity | symmetry; apply gather_length]. Qed.
  Lemma labels_length c : length (labels c) = bdim c.
  Proof. destruct c; cbn; [unfold inverse; apply map_length | reflexivity]. Qed.

  Lemma Lab_seq_ok u : NoDup u -> bc_ok (Lab u (seq 0 (length u))).
  Proof. intros H. split; [exact H|]. intros i. rewrite in_seq. lia. Qed.
  Lemma rep_Lab_seq (u : list G) : rep (Lab u (seq 0 (length u))) = u.
  Proof. apply gather_seq. Qed.

  (** ** the operations act on represented lists *)
  Lemma rep_dual c f : bc_ok c -> rep (dual c f) = if f then map qinv (rep c) else rep c.
  Proof.
    destruct f; [|reflexivity]. destruct c as [l|u ls]; [reflexivity|]. intros [_ H]. cbn.
    symmetry. apply map_gather. intros i. apply H.
  Qed.
  Lemma dual_ok c f : bc_ok c -> bc_ok (dual c f).
  Proof.
    destruct f; [|auto]. destruct c as [l|u ls]; [auto|]. intros [Hu H]. split.
    - apply NoDup_map_in; [|exact Hu]. intros ? ? _ _. apply qinv_inj.
    - rewrite map_length. exact H.
  Qed.
  Lemma rep_badd c d : rep (badd c d) = fuse2 (rep c) (rep d).
  Proof. reflexivity. Qed.

  Lemma map_seq_nth A B (f : A -> B) (s : list A) d : map f s = map (fun i => f (nth i s d)) (seq 0 (length s)).
  Proof. rewrite <- (gather_seq d s) at 1. unfold gather. apply map_map. Qed.
  Lemma nodup_index_counts (u : list G) ls i : NoDup u -> (forall j, In j ls -> j < length u) -> i < length u ->
    count_occ Nat.eq_dec ls i = count_occ qdec (gather qid u ls) (nth i u qid).
  Proof.
    intros Hu H Hi. induction ls as [|j r IH]; [reflexivity|]. cbn.
    rewrite IH by (intros; apply H; right; assumption).
    destruct (Nat.eq_dec j i) as [Ej|N]; destruct (qdec (nth j u qid) (nth i u qid)) as [E|E];
      try reflexivity; [subst j; congruence|].
    exfalso. apply N. apply (proj1 (NoDup_nth u qid) Hu); auto. apply H. left. reflexivity.
  Qed.

  (** unique without index: the values, how to get the charge back, and how often each occurs *)
  Lemma bunique_spec c : bc_ok c ->
    let '(u, inv, cnt) := bunique c in
    bc_ok u /\ NoDup (rep u) /\ rep u = uniques c /\ uniques u = uniques c /\
    (forall x, In x (rep u) <-> In x (rep c)) /\
    inv = map (fun x => index_of qdec x (uniques c)) (rep c) /\
    gather qid (rep u) inv = rep c /\
    cnt = map (count_occ qdec (rep c)) (uniques c).
  Proof.
    intros H. destruct c as [l|u ls]; cbn.
    - rewrite !gather_seq. repeat split; try apply NoDup_uniq; try apply In_uniq.
      + rewrite in_seq. lia.
      + intros. apply in_seq. lia.
      + apply gather_index. intros x. apply In_uniq.
    - destruct H as [Hu H]. rewrite gather_seq. repeat split; auto.
      + rewrite in_seq. lia.
      + intros. apply in_seq. lia.
      + intros Hx. rewrite In_gather. destruct (In_nth _ _ qid Hx) as (i & Hi & E). exists i. rewrite H. auto.
      + rewrite In_gather. intros (i & Hi & ->). apply nth_In, H, Hi.
      + symmetry. apply index_gather; auto. intros i. apply H.
      + rewrite (@nuniq_seq (length u)) by exact H.
        rewrite (map_seq_nth _ u qid). apply map_ext_in.
        intros i Hi. apply in_seq in Hi. apply nodup_index_counts; auto; [|lia]. intros j. apply H.
  Qed.

  (** unique with index: additionally the first position of each value *)
  Lemma index_of_map_inj A B (da : forall p q : A, {p = q} + {p <> q}) (db : forall p q : B, {p = q} + {p <> q})
    (f : A -> B) (x : A) (l : list A) : (forall y, In y l -> f y = f x -> y = x) -> index_of db (f x) (map f l) = index_of da x l.
  Proof.
    induction l as [|y r IH]; intros H; [reflexivity|]. cbn.
    destruct (da x y) as [Ex|N]; destruct (db (f x) (f y)) as [E|E]; try congruence.
    - exfalso. apply N. symmetry. apply H; [left; reflexivity | congruence].
    - f_equal. apply IH. intros; apply H; [right|]; assumption.
  Qed.
  Lemma bunique_index_spec c : bc_ok c ->
    let '(u, idx, inv, cnt) := bunique_index c in
    bc_ok u /\ NoDup (rep u) /\
    (forall x, In x (rep u) <-> In x (rep c)) /\
    idx = map (fun x => index_of qdec x (rep c)) (rep u) /\
    gather qid (rep u) inv = rep c /\
    cnt = map (count_occ qdec (rep c)) (rep u).
  Proof.
    intros H. destruct c as [l|u ls].
    - cbn. rewrite !gather_seq. repeat split; try apply NoDup_uniq; try apply In_uniq.
      + rewrite in_seq. lia.
      + intros. apply in_seq. lia.
      + apply gather_index. intros x. apply In_uniq.
    - unfold bunique_index. cbv zeta. rewrite (@nuniq_seq (length u)) by apply (proj2 H).
      rewrite gather_seq, seq_length.
      pose proof (bunique_spec H) as S. cbn in S. rewrite gather_seq in S.
      destruct S as (S1 & S2 & _ & _ & S3 & _ & S4 & S5). cbn [rep]. rewrite gather_seq.
      destruct H as [Hu H].
      split; [exact S1|]. split; [exact S2|]. split; [exact S3|]. split; [|split].
      + rewrite (map_seq_nth _ u qid). apply map_ext_in.
        intros i Hi. apply in_seq in Hi. unfold gather. symmetry.
        apply (@index_of_map_inj _ _ Nat.eq_dec qdec (fun i => nth i u qid)).
        intros j Hj E. apply (proj1 (NoDup_nth u qid) Hu); auto; [apply H, Hj | lia].
      + replace (map (fun i => nindex i (seq 0 (length u))) ls) with ls; [exact S4|].
        rewrite <- (map_id ls) at 1. apply map_ext_in. intros i Hi. apply H in Hi.
        rewrite <- (@seq_nth (length u) 0 i 0) at 2 by exact Hi. rewrite index_of_nth;
          [reflexivity | apply seq_NoDup | rewrite seq_length; exact Hi].
      + rewrite <- S5. rewrite (@nuniq_seq (length u)) by exact H. reflexivity.
  Qed.

  (** intersect *)
  Lemma bintersect_spec c d :
    let '(o, i1, i2) := bintersect c d in
    bc_ok o /\ NoDup (rep o) /\ StronglySorted (fun x y : G => qleb x y = true) (rep o) /\
    (forall x, In x (rep o) <-> In x (rep c) /\ In x (rep d)) /\
    i1 = map (fun x => index_of qdec x (rep c)) (rep o) /\
    i2 = map (fun x => index_of qdec x (rep d)) (rep o) /\
    gather qid (rep c) i1 = rep o /\ gather qid (rep d) i2 = rep o.
  Proof.
    unfold bintersect, locs_in. rewrite !rep_Lab_seq. repeat apply conj; try reflexivity.
    - apply NoDup_isect.
    - intros i. rewrite in_seq. lia.
    - apply NoDup_isect.
    - unfold isect. generalize (uniq_sorted (rep c)). generalize (uniq (rep c)).
      induction 1 as [|x r Hr IH Hx]; cbn; [constructor|]. destruct (qmem x (rep d)); [|exact IH].
      constructor; [exact IH|]. rewrite Forall_forall in *. intros y Hy. apply filter_In in Hy. apply Hx, Hy.
    - intros x. apply In_isect.
    - apply gather_index. intros x Hx. apply In_isect in Hx. tauto.
    - apply gather_index. intros x Hx. apply In_isect in Hx. tauto.
  Qed.

  (** getitem *)
  Lemma bgetitem_spec c ns : bc_ok c -> (forall n, In n ns -> n < bdim c) ->
    exists d, bgetitem c ns = Ok d /\ bc_ok d /\ rep d = gather qid (rep c) ns.
  Proof.
    intros Hc Hns. unfold bgetitem.
    replace (forallb (fun n => n <? bdim c) ns) with true
      by (symmetry; apply forallb_forall; intros n Hn; apply Nat.ltb_lt, Hns, Hn).
    eexists. split; [reflexivity|]. destruct c as [l|u ls]; [split; [exact I | reflexivity]|].
    destruct Hc as [Hu H]. cbn in Hns.
    assert (forall i, In i (gather 0 ls ns) -> i < length u) as Hg.
    { intros i. rewrite In_gather. intros (n & Hn & ->). apply H, nth_In, Hns, Hn. }
    split.
    - split.
      + apply NoDup_gather; [exact Hu | apply NoDup_nuniq |]. intros i. rewrite In_nuniq. apply Hg.
      + intros i. rewrite gather_length, in_map_iff. split.
        * intros (j & <- & Hj). apply index_of_lt, In_nuniq, Hj.
        * intros Hi. exists (nth i (nuniq (gather 0 ls ns)) 0). split.
          { apply index_of_nth; [apply NoDup_nuniq | exact Hi]. }
          { apply In_nuniq, nth_In, Hi. }
    - cbn. rewrite gather_gather.
      2: { intros j. rewrite in_map_iff. intros (k & <- & Hk). apply index_of_lt, In_nuniq, Hk. }
      replace (gather 0 (nuniq (gather 0 ls ns)) _) with (gather 0 ls ns).
      + unfold gather. rewrite map_map. apply map_ext_in. intros n Hn.
        rewrite (nth_indep (map (fun i => nth i u qid) ls) qid (nth 0 u qid)).
        * symmetry. apply (map_nth (fun i => nth i u qid)).
        * rewrite map_length. apply Hns, Hn.
      + unfold gather at 2. rewrite map_map. rewrite <- (map_id (gather 0 ls ns)) at 1.
        apply map_ext_in. intros j Hj. symmetry. apply nth_index_of, In_nuniq, Hj.
  Qed.

  (** number of distinct values never exceeds the number of values *)
  Lemma uniques_le c : bc_ok c -> length (uniques c) <= bdim c.
  Proof.
    intros H. rewrite bdim_rep. apply NoDup_incl_length; [apply NoDup_uniques, H|].
    intros x. apply In_uniques, H.
  Qed.
  Lemma labels_lt c i : bc_ok c -> In i (labels c) -> i < length (uniques c).
  Proof.
    intros H. rewrite labels_index by exact H. rewrite in_map_iff. intros (x & <- & Hx).
    apply index_of_lt, In_uniques; assumption.
  Qed.

  (** reduce keeps the charges contained in the targets, in order, and reports their positions *)
  Lemma breduce_spec c ts k : bc_ok c ->
    exists d, breduce c ts k = Ok (d, map (fun j => k * j) (filter (fun j => qmem (nth j (rep c) qid) ts) (seq 0 (bdim c)))) /\
      bc_ok d /\ rep d = filter (fun x => qmem x ts) (rep c) /\ uniques d = isect (rep c) ts.
  Proof.
    intros Hc. unfold breduce. cbv zeta.
    pose proof (NoDup_uniques Hc) as Hu.
    assert (isect (uniques c) ts = isect (rep c) ts) as Ei
      by (apply isect_ext; [intros x; apply In_uniques, Hc | tauto]).
    set (common := isect (uniques c) ts) in *. set (l2u := locs_in (uniques c) common).
    assert (NoDup common) as Hcn by apply NoDup_isect.
    assert (forall x, In x common -> In x (uniques c)) as Hcu.
    { intros x Hx. apply In_isect in Hx. tauto. }
    assert (forall j, In j l2u -> j < length (uniques c)) as Hl.
    { intros j. unfold l2u, locs_in. rewrite in_map_iff. intros (x & <- & Hx). apply index_of_lt, Hcu, Hx. }
    pose proof (uniques_le Hc) as Hle.
    replace (forallb (fun j => j <? bdim c) l2u) with true
      by (symmetry; apply forallb_forall; intros j Hj; apply Nat.ltb_lt; specialize (Hl j Hj); lia).
    replace (forallb (fun j => j <? bdim c) (labels c)) with true
      by (symmetry; apply forallb_forall; intros j Hj; apply Nat.ltb_lt; pose proof (labels_lt Hc Hj); lia).
    cbn [andb].
    set (red := gather None _ (labels c)).
    assert (red = map (fun x => if qmem x ts then Some (index_of qdec x common) else None) (rep c)) as Er.
    { unfold red, gather. rewrite labels_index by exact Hc. rewrite map_map. apply map_ext_in.
      intros x Hx. assert (In x (uniques c)) as Hxu by (apply In_uniques; assumption).
      set (f := fun j => if mem j l2u then Some (nindex j l2u) else None).
      set (i := index_of qdec x (uniques c)).
      assert (i < length (uniques c)) as Hi by (apply index_of_lt, Hxu).
      rewrite (nth_indep _ None (f 0)) by (rewrite map_length, seq_length; lia).
      rewrite map_nth, seq_nth by lia. cbn [Nat.add]. unfold f.
      destruct (qmem x ts) eqn:Q.
      - apply qmem_In in Q. assert (In x common) as Hxc by (apply In_isect; tauto).
        replace (mem i l2u) with true by (symmetry; apply mem_In; unfold l2u, locs_in; apply in_map_iff; exists x; split; [reflexivity | exact Hxc]). f_equal.
        unfold l2u, locs_in, i. apply (@index_of_map_inj _ _ qdec Nat.eq_dec (fun y => index_of qdec y (uniques c))).
        intros y Hy E. rewrite <- (@nth_index_of _ qdec y (uniques c) qid), E by (apply Hcu, Hy).
        apply nth_index_of, Hxu.
      - replace (mem i l2u) with false; [reflexivity|]. symmetry. apply mem_nIn. unfold l2u, locs_in.
        rewrite in_map_iff. intros (y & E & Hy). unfold i in E.
        assert (y = x) as ->.
        { rewrite <- (@nth_index_of _ qdec y (uniques c) qid), E by (apply Hcu, Hy). apply nth_index_of, Hxu. }
        apply In_isect in Hy. destruct Hy as [_ Hy]. apply qmem_In in Hy. congruence. }
    set (sel := flat_map _ red).
    assert (sel = map (fun x => index_of qdec x common) (filter (fun x => qmem x ts) (rep c))) as Es.
    { unfold sel. rewrite Er. generalize (rep c). intros l. induction l as [|x r IH]; [reflexivity|].
      cbn. destruct (qmem x ts); cbn; rewrite IH; reflexivity. }
    assert (length red = bdim c) as Elr by (rewrite Er, map_length; symmetry; apply bdim_rep).
    exists (Lab common sel). split; [|split; [|split]].
    - f_equal. f_equal. f_equal. rewrite Elr. apply filter_ext_in. intros j Hj. apply in_seq in Hj.
      rewrite Er. set (g := fun x => if qmem x ts then Some (index_of qdec x common) else None).
      rewrite (nth_indep _ None (g qid)) by (rewrite map_length, <- bdim_rep; lia).
      rewrite map_nth. unfold g. destruct (qmem _ ts); reflexivity.
    - split; [exact Hcn|]. intros i. rewrite Es, in_map_iff. split.
      + intros (x & <- & Hx). apply filter_In in Hx. apply index_of_lt, In_isect.
        rewrite In_uniques by exact Hc. rewrite <- (qmem_In x ts). tauto.
      + intros Hi. exists (nth i common qid). split; [apply index_of_nth; assumption|].
        apply filter_In. pose proof (nth_In common qid Hi) as Hn. apply In_isect in Hn.
        rewrite In_uniques in Hn by exact Hc. rewrite qmem_In. exact Hn.
    - cbn. rewrite Es. apply gather_index. intros x Hx. apply filter_In in Hx.
      apply In_isect. rewrite In_uniques by exact Hc. rewrite <- (qmem_In x ts). tauto.
    - exact Ei.
  Qed.

  (** charge_equal: equal results imply equal represented lists; the converse needs that both
      charges use the same kind of representation *)
  Lemma leqb_true A (dec : forall p q : A, {p = q} + {p <> q}) (a0 b0 : list A) : leqb dec a0 b0 = true <-> a0 = b0.
  Proof. unfold leqb. destruct (list_eq_dec dec a0 b0); split; auto; discriminate. Qed.
  Lemma charge_equal_sound c d : charge_equal c d = true -> rep c = rep d.
  Proof.
    unfold charge_equal. destruct (Nat.eqb _ _); [|discriminate].
    destruct c as [l|u ls], d as [l'|u' ls']; rewrite ?andb_true_iff, ?leqb_true; auto.
    intros [-> ->]. reflexivity.
  Qed.
  Lemma charge_equal_complete c d : rep c = rep d ->
    (forall u ls u' ls', c = Lab u ls -> d = Lab u' ls' -> u = u' /\ ls = ls') -> charge_equal c d = true.
  Proof.
    intros E H. unfold charge_equal. rewrite !bdim_rep, E, Nat.eqb_refl.
    destruct c as [l|u ls], d as [l'|u' ls']; rewrite ?andb_true_iff, ?leqb_true; auto.
  Qed.
  (** labelled charges with the same unique charges are equal iff their lists are *)
  Lemma charge_equal_sorted c d : bc_ok c -> bc_ok d -> uniques c = uniq (rep c) -> uniques d = uniq (rep d) ->
    (charge_equal c d = true <-> rep c = rep d).
  Proof.
    intros Hc Hd Uc Ud. split; [apply charge_equal_sound|]. intros E.
    apply charge_equal_complete; [exact E|]. intros u ls u' ls' -> ->.
    cbn [uniques] in Uc, Ud. assert (u = u') as <- by congruence. split; [reflexivity|].
    destruct Hc as [Hu H], Hd as [_ H']. cbn in E.
    rewrite <- (index_gather (u := u) (ls := ls)), <- (index_gather (u := u) (ls := ls')), E; auto.
    - intros i. apply H'.
    - intros i. apply H.
  Qed.
End NP.

(** ** fusing a list of charges *)
Section Fuse.
  Context {G : chg}.
  Definition gsum (l : list G) : G := fold_right qop qid l.
  (** flow sign *)
  Definition sgn (f : bool) (x : G) : G := if f then qinv x else x.
  Lemma sgn_op f x y : sgn f (qop x y) = qop (sgn f x) (sgn f y).
  Proof. destruct f; [apply qinv_op | reflexivity]. Qed.
  Lemma sgn_negb f x : sgn (negb f) x = qinv (sgn f x).
  Proof. destruct f; cbn; [symmetry; apply qinv_inv | reflexivity]. Qed.
  Lemma gsum_app l l' : gsum (l ++ l') = qop (gsum l) (gsum l').
  Proof. unfold gsum. induction l; cbn; [symmetry; apply qidl|]. rewrite IHl. apply qassoc. Qed.
  Lemma gsum_perm l l' : Permutation l l' -> gsum l = gsum l'.
  Proof.
    unfold gsum. induction 1; cbn; [reflexivity | congruence | | congruence].
    rewrite !qassoc. f_equal. apply qcomm.
  Qed.
End Fuse.

(** ** Forms used by the property theorems *)
Lemma group_laws ss : forallb ok_sym ss = true -> forall a b c,
  ok_row ss a = true -> ok_row ss b = true -> ok_row ss c = true ->
  ok_row ss (fuse_row ss a b) = true /\ ok_row ss (dual_row ss a) = true /\ ok_row ss (id_row ss) = true /\
  fuse_row ss a (fuse_row ss b c) = fuse_row ss (fuse_row ss a b) c /\
  fuse_row ss a b = fuse_row ss b a /\
  fuse_row ss (id_row ss) a = a /\
  fuse_row ss (dual_row ss a) a = id_row ss /\
  dual_row ss (fuse_row ss a b) = fuse_row ss (dual_row ss a) (dual_row ss b).
Proof.
  intros Hss a b c Ha Hb Hc.
  assert (forall x y, ok_row ss x = true -> ok_row ss y = true -> fuse_row ss x y = id_row ss -> x = dual_row ss y) as Hu.
  { intros x y Hx Hy E. rewrite <- (fuse_row_id Hss Hx), fuse_row_comm, <- (fuse_row_dual Hss Hy), (fuse_row_comm ss (dual_row ss y)).
    rewrite fuse_row_assoc, E by auto using dual_row_ok. apply fuse_row_id; auto using dual_row_ok. }
  split; [apply fuse_row_ok; assumption|]. split; [apply dual_row_ok; assumption|]. split; [apply id_row_ok; assumption|].
  split; [apply fuse_row_assoc; assumption|]. split; [apply fuse_row_comm|]. split; [apply fuse_row_id; assumption|].
  split; [apply fuse_row_dual; assumption|].
  symmetry. apply Hu; [apply fuse_row_ok; auto using dual_row_ok | apply fuse_row_ok; auto|].
  assert (ok_row ss (dual_row ss a) = true) as Hda by (apply dual_row_ok; assumption).
  assert (ok_row ss (dual_row ss b) = true) as Hdb by (apply dual_row_ok; assumption).
  rewrite (fuse_row_comm ss a b), <- (fuse_row_assoc Hss Hda Hdb) by (apply fuse_row_ok; assumption).
  rewrite (fuse_row_assoc Hss Hdb Hb Ha), (fuse_row_dual Hss Hb), (fuse_row_id Hss Ha). apply fuse_row_dual; assumption.
Qed.
Lemma charge_values :
  (forall a b, ok1 U1 (a + b) = true -> fuse1 U1 a b = (a + b)%Z) /\
  (forall a, ok1 U1 (- a) = true -> dual1 U1 a = (- a)%Z) /\
  (forall a b, ok1 Z2 a = true -> ok1 Z2 b = true -> fuse1 Z2 a b = ((a + b) mod 2)%Z) /\
  (forall n a b, ok_sym (ZN n) = true -> ok1 (ZN n) a = true -> ok1 (ZN n) b = true -> fuse1 (ZN n) a b = ((a + b) mod n)%Z) /\
  (forall n a, ok_sym (ZN n) = true -> ok1 (ZN n) a = true -> dual1 (ZN n) a = ((- a) mod n)%Z).
Proof.
  split; [|split; [|split; [|split]]].
  - intros a b H. apply ok1_U1 in H. apply w16_small, H.
  - intros a H. apply ok1_U1 in H. apply w16_small, H.
  - intros a b H H'. apply ok1_Z2 in H, H'. destruct H as [-> | ->], H' as [-> | ->]; reflexivity.
  - intros. apply fuse1_ZN; assumption.
  - intros n a Hn Ha. apply ok_sym_ZN in Hn. apply ok1_ZN in Ha. cbn. rewrite w16_small by lia.
    replace (n - a)%Z with (- a + 1 * n)%Z by lia. apply Z_mod_plus_full.
Qed.
Section Forms.
  Context {G : chg}.
  Implicit Types c d : bc G.
  Lemma bunique_rep c : bc_ok c ->
    let '(u, inv, cnt) := bunique c in
    NoDup (rep u) /\ (forall x, In x (rep u) <-> In x (rep c)) /\
    gather qid (rep u) inv = rep c /\ cnt = map (count_occ qdec (rep c)) (rep u).
  Proof.
    intros H. pose proof (bunique_spec H) as S. destruct (bunique c) as [[u inv] cnt].
    destruct S as (_ & H1 & H2 & _ & H3 & _ & H4 & H5). repeat (split; [assumption|]). rewrite H2. exact H5.
  Qed.
  Lemma breduce_rep c targets stride : bc_ok c ->
    exists d, breduce c targets stride =
        Ok (d, map (fun j => stride * j) (filter (fun j => qmem (nth j (rep c) qid) targets) (seq 0 (bdim c)))) /\
      bc_ok d /\ rep d = filter (fun x => qmem x targets) (rep c) /\ (forall x, In x (uniques d) <-> In x (rep c) /\ In x targets).
  Proof.
    intros H. destruct (@breduce_spec G c targets stride H) as (d & E & H1 & H2 & H3).
    exists d. repeat (split; [assumption|]). intros x. rewrite H3. apply In_isect.
  Qed.
  Lemma bgetitem_rep c ns : bc_ok c -> (forall n, In n ns -> n < length (rep c)) ->
    exists d, bgetitem c ns = Ok d /\ bc_ok d /\ rep d = gather qid (rep c) ns.
  Proof. intros H Hn. apply bgetitem_spec; [exact H|]. intros n Hi. rewrite bdim_rep. apply Hn, Hi. Qed.
  Lemma fuse_dual_rep c d f : bc_ok c ->
    rep (badd c d) = flat_map (fun x => map (fun y => qop x y) (rep d)) (rep c) /\
    rep (dual c f) = map (fun x => if f then qinv x else x) (rep c) /\ bc_ok (dual c f) /\ bc_ok (badd c d).
  Proof.
    intros H. split; [apply rep_badd|]. split; [|split; [apply dual_ok, H | exact I]].
    rewrite rep_dual by exact H. destruct f; [reflexivity|]. symmetry. apply map_id.
  Qed.
  Lemma charge_equal_rep c d :
    (charge_equal c d = true -> rep c = rep d) /\
    (bc_ok c -> bc_ok d -> uniques c = uniq (rep c) -> uniques d = uniq (rep d) -> rep c = rep d -> charge_equal c d = true).
  Proof. split; [apply charge_equal_sound|]. intros. apply charge_equal_sorted; assumption. Qed.
End Forms.
