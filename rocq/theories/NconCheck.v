(** * NconCheck: the validation of ncon accepts exactly the documented inputs *)
From Coq Require Import ZArith String Ascii Sorting.Sorted Permutation.
From Verif Require Import Prelude Algebra Tensor TensorFacts Einsum EinsumFacts NetworkFacts Ncon NconFacts NconProof NconSpec NconTop.
Set Implicit Arguments.
Unset Strict Implicit.
Open Scope list_scope.
Open Scope nat_scope.

Lemma alnum_char_spec c : alnum_char c = true <-> alnum c.
Proof.
  unfold alnum_char, alnum. rewrite !orb_true_iff, !andb_true_iff, !Nat.leb_le. tauto.
Qed.
Lemma all_alnum_spec s : all_alnum s = true <-> Forall alnum (chars s).
Proof.
  induction s as [|c r IH]; cbn [all_alnum chars].
  - split; [constructor | reflexivity].
  - rewrite andb_true_iff, alnum_char_spec, IH. split.
    + intros [H1 H2]. constructor; assumption.
    + intros H. inversion H. auto.
Qed.
Lemma isalnum_word s : isalnum s = true <-> word s.
Proof.
  unfold word. rewrite <- all_alnum_spec. destruct s as [|c r]; cbn [isalnum].
  - split; [discriminate | intros [H _]; congruence].
  - split; [split; [discriminate | assumption] | tauto].
Qed.
Lemma hyphen_spec s : hyphen s = true <-> exists r, s = String "-" r.
Proof.
  destruct s as [|c r]; cbn [hyphen].
  - split; [discriminate | intros [r H]; discriminate].
  - rewrite Ascii.eqb_eq. split; [intros ->; eauto | intros [r' H]; congruence].
Qed.
Lemma hyphen_not_alnum : ~ alnum "-".
Proof. unfold alnum. cbn. lia. Qed.

Lemma label_ok_spec l : label_ok l <->
  empty_str l = false /\ str_ok l = true /\ l <> LInt 0.
Proof.
  destruct l as [z|s]; cbn [label_ok].
  - cbn. split; [intros H; repeat split; congruence | intros (_ & _ & H); congruence].
  - unfold str_ok. destruct (hyphen s) eqn:E.
    + apply hyphen_spec in E. destruct E as [r ->]. rewrite isalnum_word. cbn [empty_str]. split.
      * intros [[_ H]|(r' & H & W)].
        -- exfalso. cbn in H. inversion H; subst. apply hyphen_not_alnum. assumption.
        -- inversion H; subst. repeat split; [apply W | apply W | discriminate].
      * intros (_ & W & _). right. eauto.
    + rewrite isalnum_word. split.
      * intros [W|(r' & -> & W)]; [|exfalso; cbn in E; discriminate].
        repeat split; [|apply W|apply W|discriminate]. destruct W as [W _]. destruct s; [congruence | reflexivity].
      * intros (_ & W & _). left. exact W.
Qed.

Lemma no_repeats_spec l : no_repeats l = true <-> NoDup l.
Proof.
  unfold no_repeats. rewrite forallb_forall. rewrite (NoDup_count_occ' label_dec). split; intros H x Hx.
  - apply Nat.eqb_eq, H, Hx.
  - apply Nat.eqb_eq, H, Hx.
Qed.
Lemma lmem_In x l : lmem x l = true <-> In x l.
Proof. unfold lmem. destruct (in_dec label_dec x l); split; intros; try assumption; try reflexivity; try discriminate; contradiction. Qed.

Lemma NoDup_cont flat : NoDup (get_cont_labels flat).
Proof.
  unfold get_cont_labels. apply NoDup_app_iff. repeat split; try (apply NoDup_sort, NoDup_filter, NoDup_nodup).
  intros x H1 H2. rewrite In_sort, filter_In, andb_true_iff in H1, H2. destruct (is_int x); cbn in *; intuition congruence.
Qed.
Lemma NoDup_outl flat : NoDup (get_out_labels flat).
Proof.
  unfold get_out_labels. apply NoDup_app_iff. repeat split; try (apply NoDup_sort, NoDup_filter, NoDup_nodup).
  intros x H1 H2. rewrite In_sort, filter_In, andb_true_iff in H1, H2. destruct (is_int x); cbn in *; intuition congruence.
Qed.
Lemma In_cont flat l : In l (get_cont_labels flat) <-> In l flat /\ ~ Open l.
Proof.
  unfold get_cont_labels. rewrite in_app_iff, !In_sort, !filter_In, !nodup_In, !andb_true_iff, !negb_true_iff, is_out_not.
  destruct (is_int l); intuition congruence.
Qed.
Lemma In_outl flat l : In l (get_out_labels flat) <-> In l flat /\ Open l.
Proof.
  unfold get_out_labels. rewrite in_app_iff, !In_sort, !filter_In, !nodup_In, !andb_true_iff, !negb_true_iff, is_out_Open.
  destruct (is_int l); intuition congruence.
Qed.

Lemma lists_iff (P : label -> Prop) ns full ls :
  NoDup full -> (forall l, In l full <-> In l (List.concat ns) /\ P l) ->
  (lists_labels P ns ls <->
   (forall l, In l ls -> P l) /\ NoDup ls /\ List.length ls = List.length full /\ forall l, In l ls -> In l (List.concat ns)).
Proof.
  intros Nf Hf. unfold lists_labels. split.
  - intros [N H]. repeat split; auto.
    + intros l Hl. apply H, Hl.
    + apply Permutation_length, NoDup_Permutation; auto. intros l. rewrite H, Hf. reflexivity.
    + intros l Hl. apply H, Hl.
  - intros (HP & N & L & HI). split; [exact N|]. intros l. split; [auto|]. rewrite <- Hf.
    assert (incl ls full) as I by (intros x Hx; apply Hf; auto).
    apply (NoDup_length_incl N); [lia | exact I].
Qed.

Lemma check_con_spec ns con : (forall l, In l (List.concat ns) -> label_ok l) ->
  (check_con (List.concat ns) con = true <-> lists_closed ns con).
Proof.
  intros Hok. unfold lists_closed. rewrite (lists_iff con (@NoDup_cont (List.concat ns)) (@In_cont (List.concat ns))).
  unfold check_con. rewrite !andb_true_iff, !forallb_forall, no_repeats_spec, Nat.eqb_eq.
  setoid_rewrite negb_true_iff. setoid_rewrite lmem_In. setoid_rewrite is_out_not.
  split; [tauto|]. intros (H1 & H2 & H3 & H4). repeat split; auto.
  intros x Hx. apply (label_ok_spec x), Hok, H4, Hx.
Qed.
Lemma check_out_spec ns out : (forall l, In l (List.concat ns) -> label_ok l) ->
  (check_out (List.concat ns) out = true <-> lists_open ns out).
Proof.
  intros Hok. unfold lists_open. rewrite (lists_iff out (@NoDup_outl (List.concat ns)) (@In_outl (List.concat ns))).
  unfold check_out. rewrite !andb_true_iff, !forallb_forall, no_repeats_spec, Nat.eqb_eq.
  setoid_rewrite negb_true_iff. setoid_rewrite lmem_In.
  assert (forall x, In x (List.concat ns) -> (out_sign x = true <-> Open x)) as E.
  { intros x Hx. rewrite <- is_out_Open. specialize (Hok _ Hx). destruct x as [z|s]; cbn in *; [|reflexivity].
    rewrite negb_true_iff, Z.ltb_ge, Z.ltb_lt. lia. }
  split.
  - intros ((((H1 & H2) & H3) & H4) & H5). repeat split; auto. intros l Hl. apply E; auto.
  - intros (H1 & H2 & H3 & H4). repeat split; auto.
    + intros x Hx. apply (label_ok_spec x), Hok, H4, Hx.
    + intros x Hx. apply E; auto.
Qed.

Lemma nodup_le1 l : List.length (nodup Nat.eq_dec l) <= 1 <-> forall x y, In x l -> In y l -> x = y.
Proof.
  pose proof (NoDup_nodup Nat.eq_dec l) as N. pose proof (fun x => nodup_In Nat.eq_dec l x) as I.
  destruct (nodup Nat.eq_dec l) as [|a [|b r]].
  - split; [|cbn; lia]. intros _ x y Hx. apply I in Hx. destruct Hx.
  - split; [|cbn; lia]. intros _ x y Hx Hy. apply I in Hx, Hy. destruct Hx as [<-|[]], Hy as [<-|[]]. reflexivity.
  - split; [cbn; lia|]. intros H. exfalso. inversion N as [|? ? Na]; subst. apply Na. left. apply H; apply I; cbn; auto.
Qed.
Lemma In_axes (ns : list (list label)) (dims : list (list nat)) l d :
  In (l, d) (flat_map (fun x => combine (fst x) (snd x)) (combine ns dims)) <-> axis ns dims l d.
Proof.
  rewrite in_flat_map. unfold axis.
  assert (forall A B (la : list A) (lb : list B) a b, In (a, b) (combine la lb) <->
    exists k, nth_error la k = Some a /\ nth_error lb k = Some b) as C.
  { intros A B. induction la as [|x la IH]; intros [|y lb] a b; cbn [combine].
    - split; [intros [] | intros ([|k] & H & _); discriminate].
    - split; [intros [] | intros ([|k] & H & _); discriminate].
    - split; [intros [] | intros ([|k] & _ & H); discriminate].
    - split.
      + intros [H|H]; [inversion H; exists 0; auto|]. apply IH in H. destruct H as (k & H). exists (S k). exact H.
      + intros ([|k] & H1 & H2); cbn in *; [left; congruence|]. right. apply IH. eauto. }
  split.
  - intros ([ls ds] & H & Hk). apply C in H. destruct H as (n & Hn & Hd). cbn in Hk. apply C in Hk. destruct Hk as (k & Hk).
    exists n, k. erewrite !nth_error_nth by eassumption. exact Hk.
  - intros (n & k & H1 & H2). exists (nth n ns [], nth n dims []). split.
    + apply C. exists n. split; apply nth_error_nth'.
      * destruct (Nat.lt_ge_cases n (List.length ns)) as [|Hge]; [assumption|]. rewrite (nth_overflow _ _ Hge) in H1. destruct k; discriminate.
      * destruct (Nat.lt_ge_cases n (List.length dims)) as [|Hge]; [assumption|]. rewrite (nth_overflow _ _ Hge) in H2. destruct k; discriminate.
    + cbn [fst snd]. apply C. eauto.
Qed.

Theorem check_network_iff ns dims con out :
  check_network ns dims con out = true <-> Valid ns dims con out.
Proof.
  unfold check_network. rewrite !andb_true_iff, Nat.eqb_eq, !forallb_forall.
  assert (forall l, (if label_dec l (LInt 0) then false else true) = true <-> l <> LInt 0) as Z0.
  { intros l. destruct (label_dec l (LInt 0)); split; intros; try congruence. }
  assert (List.length ns = List.length dims ->
    ((forall x, In x (combine ns dims) -> Nat.eqb (List.length (snd x)) (List.length (fst x)) = true) <->
     forall n, List.length (nth n ns []) = List.length (nth n dims []))) as Rk.
  { intros Hl. split.
    - intros H n. destruct (Nat.lt_ge_cases n (List.length ns)) as [Hn|Hn].
      + specialize (H (nth n (combine ns dims) ([], []))). rewrite combine_nth in H by exact Hl. cbn in H.
        symmetry. apply Nat.eqb_eq, H. rewrite <- combine_nth by exact Hl. apply nth_In. rewrite combine_length. lia.
      + rewrite !nth_overflow by lia. reflexivity.
    - intros H x Hx. apply (In_nth _ _ ([], [])) in Hx. destruct Hx as (n & _ & <-).
      rewrite combine_nth by exact Hl. cbn [fst snd]. apply Nat.eqb_eq. symmetry. apply H. }
  assert ((forall x, In x (get_cont_labels (List.concat ns)) -> Nat.leb (List.length (dims_of dims ns x)) 1 = true) <->
          forall l d d', ~ Open l -> axis ns dims l d -> axis ns dims l d' -> d = d') as Dm.
  { assert (forall l d, In d (map snd (filter (fun p : label * nat => if label_dec (fst p) l then true else false)
                (flat_map (fun x => combine (fst x) (snd x)) (combine ns dims)))) <-> axis ns dims l d) as A.
    { intros l d. rewrite <- In_axes, in_map_iff. split.
      - intros ([l' d'] & <- & H). apply filter_In in H. destruct H as [H E]. cbn in *. destruct (label_dec l' l); [subst; exact H | discriminate].
      - intros H. exists (l, d). split; [reflexivity|]. apply filter_In. split; [exact H|]. cbn. destruct (label_dec l l); congruence. }
    split.
    - intros H l d d' Op H1 H2.
      assert (In l (List.concat ns)) as Hl.
      { destruct H1 as (n & k & H1 & _). apply nth_error_In in H1. apply in_concat.
        exists (nth n ns []). split; [|exact H1]. apply nth_In.
        destruct (Nat.lt_ge_cases n (List.length ns)) as [|Hge]; [assumption|]. rewrite (nth_overflow _ _ Hge) in H1. destruct H1. }
      specialize (H l (proj2 (In_cont _ _) (conj Hl Op))). apply Nat.leb_le in H. unfold dims_of in H.
      eapply (proj1 (nodup_le1 _)); [exact H | apply A; assumption | apply A; assumption].
    - intros H l Hl. apply In_cont in Hl. apply Nat.leb_le. unfold dims_of. apply nodup_le1.
      intros x y Hx Hy. apply A in Hx, Hy. eapply H; [apply Hl | eassumption | eassumption]. }
  rewrite Dm. setoid_rewrite negb_true_iff. setoid_rewrite Z0. split.
  - intros (((((((H1 & H2) & H3) & H4) & H5) & H6) & H7) & H8).
    assert (forall l, In l (List.concat ns) -> label_ok l) as Hok by (intros l Hl; apply label_ok_spec; auto).
    constructor; auto.
    + apply Rk; assumption.
    + intros c ->. apply check_con_spec; assumption.
    + intros c ->. apply check_out_spec; assumption.
  - intros [H1 H2 H3 H4 H5 H6]. repeat split; auto.
    + apply Rk; assumption.
    + intros l Hl. apply (label_ok_spec l), H3, Hl.
    + intros l Hl. apply (label_ok_spec l), H3, Hl.
    + intros l Hl. apply (label_ok_spec l), H3, Hl.
    + destruct con; [|reflexivity]. apply check_con_spec; auto.
    + destruct out; [|reflexivity]. apply check_out_spec; auto.
Qed.
