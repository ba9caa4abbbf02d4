(** * GraphDensity: the value of copied networks and of reduced density matrices *)
From Verif Require Import Prelude Algebra Tensor TensorFacts Einsum EinsumFacts NetworkFacts Graph GraphBase GraphContract GraphOps GraphValue GraphConnect GraphJoin GraphLaws GraphQuery GraphQueryFacts GraphCopy NetIso GraphCopyFacts GraphCompound.
Set Implicit Arguments.
Unset Strict Implicit.

Section ValueApp.
  Context {R : csr}.
  Add Ring Rr : (rsr R).
  Notation value := (value Nat.eq_dec).

  (** two networks without a common edge: the value of their union is the product *)
  Lemma value_app dim (n1 n2 : list (factor nat R)) a : (forall x, In x (net_labels n1) -> ~ In x (net_labels n2)) ->
    value dim (n1 ++ n2) a = value dim n1 a *! value dim n2 a.
  Proof.
    intros Hd. unfold Einsum.value, einsum.
    assert (Permutation (repeated Nat.eq_dec (net_labels (n1 ++ n2))) (repeated Nat.eq_dec (net_labels n1) ++ repeated Nat.eq_dec (net_labels n2))) as HR.
    { apply NoDup_Permutation.
      - apply NoDup_repeated.
      - apply NoDup_app_iff. repeat split; try apply NoDup_repeated. intros x Hx K. apply In_repeated in Hx, K.
        apply (Hd x); apply (count_occ_In Nat.eq_dec); lia.
      - intros x. rewrite in_app_iff, !In_repeated, net_labels_app, count_occ_app.
        destruct (in_dec Nat.eq_dec x (net_labels n1)) as [Hx|Hx].
        + rewrite (proj1 (count_occ_not_In Nat.eq_dec _ _) (Hd x Hx)). lia.
        + rewrite (proj1 (count_occ_not_In Nat.eq_dec _ _) Hx). lia. }
    rewrite (@esum_perm _ Nat.eq_dec R dim _ _ (netprod (n1 ++ n2)) a) with (3 := HR);
      [|eapply dep_ext; apply netprod_dep|apply NoDup_repeated].
    rewrite esum_app.
    rewrite (@esum_ext _ Nat.eq_dec R dim _ _ (fun b => netprod n1 b *! esum Nat.eq_dec dim (repeated Nat.eq_dec (net_labels n2)) (netprod n2) b)).
    - rewrite esum_mul_r; [reflexivity|]. eapply dep_indep; [apply esum_dep'; apply netprod_dep|].
      intros x Hx K. apply In_repeated in Hx. apply (Hd x); [apply (count_occ_In Nat.eq_dec); lia|exact K].
    - intros b. rewrite <- esum_mul_l.
      + apply esum_ext. intros c. apply netprod_app.
      + eapply dep_indep; [apply netprod_dep|]. intros x Hx K. apply In_repeated in Hx. apply (Hd x); [exact K|].
        apply (count_occ_In Nat.eq_dec); lia.
  Qed.

  Lemma netval_ext_asg (s : @st R) S a b : (forall x, count_occ Nat.eq_dec (net_labels (net_of s S)) x = 1 -> a x = b x) -> netval s S a = netval s S b.
  Proof. intros H. apply value_open. intros x _ Hx. apply H, Hx. Qed.

  Lemma In_net_labels (s : @st R) S e : In e (net_labels (net_of s S)) <-> exists n, In n S /\ on s n e.
  Proof.
    unfold net_labels, net_of. rewrite in_flat_map. split.
    - intros (x & Hx & He). apply in_map_iff in Hx. destruct Hx as (n & <- & Hn). exists n. split; [exact Hn|].
      unfold fac in He. destruct (s_nodes s n) as [nd|] eqn:E; [|destruct He]. apply (on_In e E). exact He.
    - intros (n & Hn & Ho). exists (fac s n). split; [apply in_map, Hn|]. unfold fac. pose proof (on_node Ho) as Q.
      destruct (is_node_Some Q) as [nd E]. rewrite E. apply (on_In e E). exact Ho.
  Qed.

  Lemma netval_app (s : @st R) S T a : (forall m n e, In m S -> In n T -> on s m e -> ~ on s n e) ->
    netval s (S ++ T) a = netval s S a *! netval s T a.
  Proof.
    intros H. unfold netval, net_of. rewrite map_app. apply value_app. intros x Hx Hy.
    apply In_net_labels in Hx, Hy. destruct Hx as (m & Hm & Q), Hy as (n & Hn & Q'). apply (H m n x Hm Hn Q Q').
  Qed.
End ValueApp.

Section CopyValue.
  Context {R : cjr}.
  Notation st := (@st R).
  Implicit Types (s : st) (e f : eid).

  Definition cjv (conj : bool) (x : R) : R := if conj then cj x else x.

  (** [a'] gives every loose end of the copies the index that [a] gives the original loose end *)
  Definition follows s s' (ns : list nid) (d : list (nid * nid)) (a a' : nat -> nat) : Prop :=
    forall n N k e e', dget d n = Some N -> slot s (n, k) = Some e -> slot s' (N, k) = Some e' ->
      count_occ Nat.eq_dec (net_labels (net_of s ns)) e = 1 -> a' e' = a e.

  Theorem copy_value conj s s' ns d ee Ns a a' : wf s -> (forall n, In n ns -> is_node s n) -> copy_spec conj s s' ns d ee ->
    Forall2 (fun n N => dget d n = Some N) ns Ns -> follows s s' ns d a a' ->
    netval s' Ns a' = cjv conj (netval s ns a).
  Proof.
    intros W Hns C HF Ha.
    set (P := combine ns Ns).
    assert (length ns = length Ns) as HL by (clear - HF; induction HF; cbn; congruence).
    assert (map fst P = ns) as P1.
    { unfold P. clear - HL. revert Ns HL. induction ns as [|x r IH]; intros [|y t] H; cbn in *; try discriminate; [reflexivity|]. f_equal. apply IH. lia. }
    assert (map snd P = Ns) as P2.
    { unfold P. clear - HL. revert Ns HL. induction ns as [|x r IH]; intros [|y t] H; cbn in *; try discriminate; [reflexivity|]. f_equal. apply IH. lia. }
    assert (forall n N, In (n, N) P -> dget d n = Some N) as HP.
    { unfold P. clear - HF. induction HF as [|x y l l' H _ IH]; cbn [combine]; intros n N; [intros []|]. intros [K|K]; [congruence|apply IH, K]. }
    rewrite <- P1, <- P2. apply netval_iso with (h := cjv conj); auto.
    - destruct conj; cbn; auto using cj_add.
    - destruct conj; cbn; auto using cj_mul.
    - destruct conj; cbn; auto using cj_0.
    - destruct conj; cbn; auto using cj_1.
    - apply (cs_wf C).
    - split.
      + intros n N Hin. apply HP in Hin. assert (In n ns) as Hn by (apply (cs_dom C); eauto).
        destruct (is_node_Some (Hns n Hn)) as [nd Hnd]. destruct (cs_node C Hin Hnd) as (es' & Q1 & Q2).
        exists nd. eexists. split; [exact Hnd|]. split; [exact Q1|]. cbn [n_t n_edges]. destruct conj; cbn; auto.
      + intros n N m M' k l Hn Hm. apply (cs_slot C (HP _ _ Hn) (HP _ _ Hm)).
    - rewrite P1. intros n N k e e' Hin. apply Ha. apply HP, Hin.
  Qed.

  Lemma replicate_ok (iter : list nat -> list nat) (iter_perm : forall l, Permutation (iter l) l) conj s ns :
    wf s -> NoDup ns -> (forall n, In n ns -> is_node s n /\ named s n) ->
    exists s' d ee Ns, replicate_nodes iter ns conj s = (s', Some Ns) /\ copy_spec conj s s' ns d ee /\ Forall2 (fun n N => dget d n = Some N) ns Ns.
  Proof.
    intros W Hnd Hns. destruct (copy_ok iter_perm conj W Hnd Hns) as (s' & d & ee & H & C & _ & HF).
    exists s', d, ee, (seq (s_nn s) (length ns)). split; [|auto]. unfold replicate_nodes, bind. rewrite H. cbn [fst].
    clear - HF. induction HF as [|n N l l' Hn _ IH]; cbn [mmap]; [reflexivity|].
    rewrite Hn. unfold bind, ret. unfold ret in IH. rewrite IH. reflexivity.
  Qed.
End CopyValue.

Section Close.
  Context {R : cjr}.
  Notation st := (@st R).
  Implicit Types (s : st) (e f : eid).
  Variable iter : list nat -> list nat.
  Hypothesis iter_perm : forall l, Permutation (iter l) l.
  Add Ring Rcl : (rsr R).

  Lemma binds_step (a : nat -> nat) e es f fs i vs x : length vs = length es -> length fs = length es -> NoDup ((e :: es) ++ f :: fs) ->
    binds Nat.eq_dec (binds Nat.eq_dec a (f :: fs) (i :: vs)) (e :: es) (i :: vs) x =
    upd Nat.eq_dec (upd Nat.eq_dec (binds Nat.eq_dec (binds Nat.eq_dec a fs vs) es vs) f i) e i x.
  Proof using.
    intros H1 H2 HN. cbn [binds]. cbn [app] in HN. apply NoDup_cons_iff in HN. destruct HN as [He HN].
    pose proof (Permutation_NoDup (Permutation_sym (Permutation_middle es fs f)) HN) as HN'. apply NoDup_cons_iff in HN'. destruct HN' as [Hf HN'].
    rewrite in_app_iff in He, Hf. cbn in He.
    unfold upd at 3. destruct (Nat.eq_dec x e) as [->|Hxe].
    { rewrite binds_other by tauto. apply upd_same. }
    unfold upd at 3. destruct (Nat.eq_dec x f) as [->|Hxf].
    { rewrite binds_other by tauto. rewrite upd_other by congruence. rewrite binds_other by tauto. apply upd_same. }
    destruct (in_dec Nat.eq_dec x es) as [Hx|Hx].
    { apply binds_agree; auto. }
    rewrite !binds_other with (ls := es) by exact Hx. rewrite upd_other by exact Hxe.
    destruct (in_dec Nat.eq_dec x fs) as [Hy|Hy].
    { apply binds_agree; [lia|exact Hy]. }
    rewrite !binds_other by exact Hy. apply upd_other. exact Hxf.
  Qed.

  Definition loose s (S : list nid) e : Prop :=
    exists p, In (fst p) S /\ slot s p = Some e /\ s_edges s e = Some (Edge (fst p) (snd p) None false).

  Lemma close_ok (S : list nid) : NoDup S -> forall es fs s (dict : list (eid * eid)), wf s -> NoDup (es ++ fs) ->
    Forall2 (fun e f => dget dict e = Some f) es fs -> (forall x, In x (es ++ fs) -> loose s S x) ->
    Forall2 (fun e f => edim s e = edim s f) es fs ->
    exists s' dict', close_edges dict es s = (s', Some dict') /\ wf s' /\ s_nn s' = s_nn s /\ same_nodes s s' /\
      (forall p x, slot s p = Some x -> ~ In x (es ++ fs) -> slot s' p = Some x) /\
      (forall x, ~ In x es -> dget dict' x = dget dict x) /\
      Forall2 (fun e f => exists g p q, dget dict' e = Some g /\ slot s p = Some e /\ slot s q = Some f /\ slot s' p = Some g /\ slot s' q = Some g) es fs /\
      forall a, netval s' S a = lsum (idxs (map (edim s) es)) (fun vs => netval s S (binds Nat.eq_dec (binds Nat.eq_dec a fs vs) es vs)).
  Proof using.
    intros HS. induction es as [|e es IH]; intros fs s dict W HN Hd HL Hdim; inversion Hd as [|? f ? fs' Hdf Hdr]; subst; cbn [close_edges].
    { exists s, dict. split; [reflexivity|]. split; [exact W|]. split; [reflexivity|]. split; [apply same_nodes_refl|]. split; [auto|]. split; [auto|]. split; [constructor|].
      intros a. cbn [map idxs]. rewrite lsum_cons, lsum_nil. cbn [binds]. ring. }
    rename fs' into fs. inversion Hdim as [|? ? ? ? Hde Hdes]; subst.
    pose proof HN as HN0.
    cbn [app] in HN. apply NoDup_cons_iff in HN. destruct HN as [He HN].
    pose proof (Permutation_NoDup (Permutation_sym (Permutation_middle es fs f)) HN) as HN'. apply NoDup_cons_iff in HN'. destruct HN' as [Hf HN'].
    destruct (HL e ltac:(left; reflexivity)) as (p & Sp & Hp & Ep).
    destruct (HL f ltac:(cbn [app]; right; apply in_or_app; right; left; reflexivity)) as (q & Sq & Hq & Eq).
    assert (e <> f) as Hef by (intros ->; apply He, in_or_app; right; left; reflexivity).
    rewrite Hdf.
    destruct (proj2 (@connect_total _ s q p f e _ _ W Hq Hp Eq Ep)) as (s1 & g & H1).
    { cbn. split; [reflexivity|]. split; [reflexivity|]. split; [congruence|].
      rewrite (edim_dimat W Hq), (edim_dimat W Hp). congruence. }
    destruct (connect_inv W (ex_intro _ _ Hq) (ex_intro _ _ Hp) H1) as (q' & p' & C).
    assert (q' = q) as -> by (pose proof (dangling_slot W (cp_p1 C) Eq eq_refl) as K; cbn in K; rewrite <- surjective_pairing in K; exact K).
    assert (p' = p) as -> by (pose proof (dangling_slot W (cp_p2 C) Ep eq_refl) as K; cbn in K; rewrite <- surjective_pairing in K; exact K).
    pose proof (connect_wf W C) as W1.
    assert (forall z x, slot s z = Some x -> x <> e -> x <> f -> slot s1 z = Some x /\ s_edges s1 x = s_edges s x) as Keep.
    { intros z x Hz N1 N2. split.
      - rewrite (cp_slot C). destruct (slot_eqb_spec z q) as [->|]; [congruence|]. destruct (slot_eqb_spec z p) as [->|]; [congruence|]. exact Hz.
      - apply (cp_edges C). rewrite (cp_e C). destruct (slot_lt W Hz). lia. }
    assert (forall x, In x (es ++ fs) -> x <> e /\ x <> f) as Hne.
    { intros x Hx. split; intros ->; [|contradiction]. apply He. apply in_app_or in Hx. apply in_or_app. destruct Hx; [left|right; right]; assumption. }
    assert (forall x, In x (es ++ fs) -> loose s S x) as HL0.
    { intros x Hx. apply HL. cbn [app]. right. apply in_app_or in Hx. apply in_or_app. destruct Hx; [left|right; right]; assumption. }
    assert (forall x, In x (es ++ fs) -> loose s1 S x) as HL1.
    { intros x Hx. destruct (HL0 x Hx) as (z & Q1 & Q2 & Q3). destruct (Hne x Hx) as [N1 N2]. destruct (Keep z x Q2 N1 N2) as [K1 K2].
      exists z. rewrite K2. auto. }
    assert (forall x, In x (es ++ fs) -> edim s1 x = edim s x) as Hed.
    { intros x Hx. destruct (HL0 x Hx) as (z & Q1 & Q2 & Q3). destruct (Hne x Hx) as [N1 N2]. destruct (Keep z x Q2 N1 N2) as [K1 _].
      pose proof (edim_dimat W1 K1) as D1. rewrite (same_nodes_dimat z (cp_same C)), (edim_dimat W Q2) in D1. congruence. }
    destruct (IH fs s1 ((e, g) :: dict) W1 HN') as (s' & dict' & H2 & W' & Hnn & SN & Hkeep & Hdict & Hjoin & Hval).
    { clear - Hdr He. assert (~ In e es) as K by (intros K; apply He, in_or_app; left; exact K). clear He.
      induction Hdr as [|x y l l' Hx _ IHl]; constructor.
      - cbn [dget]. destruct (Nat.eqb_spec e x) as [->|]; [exfalso; apply K; left; reflexivity|exact Hx].
      - apply IHl. intros Q. apply K. right. exact Q. }
    { exact HL1. }
    { clear - Hdes Hed. assert (forall x, In x es \/ In x fs -> edim s1 x = edim s x) as Q by (intros x Hx; apply Hed, in_or_app; exact Hx). clear Hed.
      induction Hdes as [|x y l l' Hx _ IHl]; constructor.
      - rewrite !Q; auto; [right; left; reflexivity|left; left; reflexivity].
      - apply IHl. intros z [Hz|Hz]; apply Q; [left|right]; right; exact Hz. }
    assert (g = s_ne s) as Hg by apply (cp_e C).
    assert (forall x, In x (es ++ fs) -> x < s_ne s) as Hlt.
    { intros x Hx. destruct (HL0 x Hx) as (z & _ & Q & _). apply (slot_lt W Q). }
    assert (~ In g (es ++ fs)) as Hgn by (intros K; apply Hlt in K; lia).
    exists s', dict'. unfold bind. rewrite H1. split; [exact H2|]. split; [exact W'|]. split; [rewrite Hnn; apply (cp_nn C)|].
    split; [exact (same_nodes_trans (cp_same C) SN)|]. split; [|split; [|split]].
    - intros z x Hz Hx. cbn [app] in Hx. apply Hkeep.
      + apply Keep; [exact Hz| |]; intros ->; apply Hx; [left; reflexivity|right; apply in_or_app; right; left; reflexivity].
      + intros K. apply Hx. right. apply in_app_or in K. apply in_or_app. destruct K; [left|right; right]; assumption.
    - intros x Hx. rewrite Hdict by (intros K; apply Hx; right; exact K). cbn [dget].
      destruct (Nat.eqb_spec e x) as [->|]; [exfalso; apply Hx; left; reflexivity|reflexivity].
    - constructor.
      + exists g, p, q. split; [|split; [exact Hp|split; [exact Hq|split]]].
        * rewrite Hdict by (intros K; apply He, in_or_app; left; exact K). cbn [dget]. rewrite Nat.eqb_refl. reflexivity.
        * apply Hkeep; [|exact Hgn]. rewrite (cp_slot C). destruct (slot_eqb_spec p p); [|congruence]. rewrite orb_true_r. reflexivity.
        * apply Hkeep; [|exact Hgn]. rewrite (cp_slot C). destruct (slot_eqb_spec q q); [|congruence]. reflexivity.
      + assert (forall x y, In x es -> In y fs -> (exists g0 p0 q0, dget dict' x = Some g0 /\ slot s1 p0 = Some x /\ slot s1 q0 = Some y /\ slot s' p0 = Some g0 /\ slot s' q0 = Some g0) ->
           exists g0 p0 q0, dget dict' x = Some g0 /\ slot s p0 = Some x /\ slot s q0 = Some y /\ slot s' p0 = Some g0 /\ slot s' q0 = Some g0) as Back.
        { intros x y Hx Hy (g0 & p0 & q0 & T1 & T2 & T3 & T4 & T5). exists g0, p0, q0. repeat split; auto.
          - destruct (HL0 x) as (z & _ & Q & _); [apply in_or_app; left; exact Hx|]. destruct (Hne x) as [N1 N2]; [apply in_or_app; left; exact Hx|].
            pose proof (cp_slot C p0) as K. rewrite T2 in K. destruct (slot_eqb p0 q || slot_eqb p0 p); [|congruence].
            injection K as ->. exfalso. apply Hgn, in_or_app. left. exact Hx.
          - pose proof (cp_slot C q0) as K. rewrite T3 in K. destruct (slot_eqb q0 q || slot_eqb q0 p); [|congruence].
            injection K as ->. exfalso. apply Hgn, in_or_app. right. exact Hy. }
        clear - Hjoin Back. induction Hjoin as [|x y l l' Hx _ IHl]; constructor.
        * apply Back; [left; reflexivity|left; reflexivity|exact Hx].
        * apply IHl. intros u v Hu Hv. apply Back; right; assumption.
    - intros a. rewrite Hval.
      assert (length fs = length es) as HLen by (clear - Hdr; induction Hdr; cbn; congruence).
      cbn [map]. rewrite lsum_idxs_cons. unfold nsum at 1. rewrite lsum_swap.
      replace (map (edim s1) es) with (map (edim s) es) by (apply map_ext_in; intros x Hx; symmetry; apply Hed, in_or_app; left; exact Hx).
      apply lsum_ext. intros vs Hvs. rewrite (connect_value _ W C HS Sq Sp). rewrite <- Hde. unfold nsum. apply lsum_ext. intros i _.
      apply netval_ext_asg. intros x _. symmetry. apply binds_step; auto.
      apply In_idxs in Hvs. rewrite (valid_length Hvs), map_length. reflexivity.
  Qed.

  Definition edict (ee : list (eid * eid)) e : eid := match dget ee e with Some f => f | None => 0 end.

  (** the copies of a closed set of edges [es]: what [reduced_density] has done *)
  Record density_spec s s' (es : list eid) (ns Ns : list nid) (d : list (nid * nid)) (ee : list (eid * eid)) : Prop := {
    ds_wf : wf s';
    (** ns is the connected part of the network that carries the given edges *)
    ds_ns : NoDup ns /\ forall m, In m ns <-> exists e n, In e es /\ on s n e /\ connected s n m;
    ds_dict : Forall2 (fun n N => dget d n = Some N) ns Ns /\ NoDup Ns /\ forall N, In N Ns -> ~ is_node s N;
    (** tensors and axis names: the state keeps its own, the copies have the conjugates *)
    ds_ket : forall m nd, s_nodes s m = Some nd -> exists es', s_nodes s' m = Some (Node (n_t nd) es' (n_names nd));
    ds_bra : forall n N nd, dget d n = Some N -> s_nodes s n = Some nd -> exists es', s_nodes s' N = Some (Node (conj_t (n_t nd)) es' (n_names nd));
    (** wiring: traced edges join the axis of the original to the axis of its copy, all others stay *)
    ds_traced : forall e n N k, In e es -> dget d n = Some N -> slot s (n, k) = Some e ->
      exists g, dget ee e = Some g /\ slot s' (n, k) = Some g /\ slot s' (N, k) = Some g;
    ds_other : forall e n k, ~ In e es -> slot s (n, k) = Some e -> slot s' (n, k) = Some e;
    ds_copied : forall e n N k, ~ In e es -> dget d n = Some N -> slot s (n, k) = Some e -> (forall m, ~ between s m m e) ->
      dget ee e <> None /\ slot s' (N, k) = dget ee e;
    (** value: the traced indices are summed between the state and its conjugate *)
    ds_value : forall a, netval s' (ns ++ Ns) a =
      lsum (idxs (map (edim s) es)) (fun vs =>
        netval s ns (binds Nat.eq_dec a es vs) *! cj (netval s ns (binds Nat.eq_dec (fun e => a (edict ee e)) es vs)))
  }.

  Lemma trace_count s ns m e i j : In m ns -> slot s (m, i) = Some e -> slot s (m, j) = Some e -> i <> j ->
    2 <= count_occ Nat.eq_dec (net_labels (net_of s ns)) e.
  Proof using.
    intros Hm Hi Hj Hij. destruct (slot_node Hi) as (nd & E & Ki). unfold slot in Hj. cbn in Hj. rewrite E in Hj.
    assert (2 <= count_occ Nat.eq_dec (n_edges nd) e) as H by (apply count_two; eauto).
    apply (in_split m ns) in Hm. destruct Hm as (l1 & l2 & ->). unfold net_of, net_labels. rewrite map_app, flat_map_app. cbn [map flat_map].
    rewrite !count_occ_app. unfold fac at 2. rewrite E. cbn [snd]. lia.
  Qed.

  Lemma binds_nth (a : nat -> nat) ls vs i x : NoDup ls -> length vs = length ls -> nth_error ls i = Some x -> nth_error vs i = Some (binds Nat.eq_dec a ls vs x).
  Proof using.
    intros HN HL Hi. pose proof (@map_binds nat Nat.eq_dec a ls vs HN HL) as E. rewrite <- E at 1. rewrite nth_error_map, Hi. reflexivity.
  Qed.

  Theorem reduced_density_ok s es : wf s -> es <> [] -> NoDup es -> (forall e, In e es -> exists n, open_on s n e) ->
    (forall e n m, In e es -> on s n e -> connected s n m -> named s m) ->
    exists s' ns Ns d ee, reduced_density iter es s = (s', Some (d, ee)) /\ density_spec s s' es ns Ns d ee.
  Proof using iter_perm.
    intros W Hne HN Hop Hnm.
    assert (forall e, In e es -> exists n, on s n e) as Hon.
    { intros e He. destruct (Hop e He) as (n & k & Hk & _). exists n, k. exact Hk. }
    assert (forallb (edge_dangling s) es = true) as Hg.
    { apply forallb_forall. intros e He. destruct (Hop e He) as (n & k & Hk & Hu). apply (edge_dangling_spec (n := n) W); [exists k; exact Hk|].
      exists k. auto. }
    destruct (get_all_nodes_spec iter_perm W Hon) as (ns0 & H1 & Hnd0 & Hns0).
    assert (ns0 <> []) as Hne0.
    { destruct es as [|e r]; [congruence|]. destruct (Hon e (or_introl eq_refl)) as [n Hn]. intros ->.
      apply (proj2 (Hns0 n)). exists e. split; [left; reflexivity|exact Hn]. }
    destruct (@reachable_spec _ iter iter_perm s ns0 W Hne0) as (ns & H2 & Hnd & Hns).
    { intros n Hn. apply Hns0 in Hn. destruct Hn as (e & _ & Ho). apply (on_node Ho). }
    assert (forall m, In m ns <-> exists e n, In e es /\ on s n e /\ connected s n m) as Hns'.
    { intros m. rewrite Hns. split.
      - intros (n & Hn & Hc). apply Hns0 in Hn. destruct Hn as (e & He & Ho). exists e, n. auto.
      - intros (e & n & He & Ho & Hc). exists n. split; [apply Hns0; exists e; auto|exact Hc]. }
    assert (forall m, In m ns -> is_node s m /\ named s m) as Hnode.
    { intros m Hm. apply Hns' in Hm. destruct Hm as (e & n & He & Ho & Hc). split; [|apply (Hnm e n m He Ho Hc)].
      clear - Hc Ho. induction Hc; [apply (on_node Ho)|]. apply (on_node H0). }
    assert (forall e n, In e es -> on s n e -> In n ns) as Hin.
    { intros e n He Ho. apply Hns'. exists e, n. split; [exact He|]. split; [exact Ho|constructor]. }
    destruct (copy_ok iter_perm true W Hnd Hnode) as (s1 & d & ee & H3 & C & Hfd & HF).
    set (Ns := seq (s_nn s) (length ns)) in *.
    assert (forall N, In N Ns <-> exists n, In n ns /\ dget d n = Some N) as HNs.
    { clearbody Ns. clear - HF. induction HF as [|x y l l' Hx _ IH]; intros N; [split; [intros []|intros (? & [] & _)]|]. split.
      - intros [<-|K]; [exists x; split; [left; reflexivity|exact Hx]|]. apply IH in K. destruct K as (n & Hn & K). exists n. split; [right; exact Hn|exact K].
      - intros (n & [->|Hn] & K); [left; congruence|]. right. apply IH. exists n. auto. }
    set (fs := map (edict ee) es).
    (* the edge of the copy that belongs to a traced edge *)
    assert (forall e n k, In e es -> slot s (n, k) = Some e -> forall m, ~ between s m m e) as Hnt.
    { intros e n k He Hk m (p & q & Hpq & _ & _ & Sp & Sq). destruct (Hop e He) as (n' & k' & _ & Hu). rewrite (Hu p Sp), (Hu q Sq) in Hpq. congruence. }
    assert (forall e n N k, In e es -> dget d n = Some N -> slot s (n, k) = Some e -> dget ee e = Some (edict ee e) /\ slot s1 (N, k) = Some (edict ee e)) as Hfe.
    { intros e n N k He Hn Hk. assert (exists f, dget ee e = Some f) as [f Hf].
      { apply (cs_edom C). exists n. split; [apply (cs_dom C); eauto|exists k; exact Hk]. }
      unfold edict. rewrite Hf. split; [reflexivity|]. apply (cs_edge C Hf (Hnt e n k He Hk) Hn Hk). }
    assert (forall e, In e es -> exists n k N, In n ns /\ slot s (n, k) = Some e /\ dget d n = Some N /\ (forall q, slot s q = Some e -> q = (n, k))) as Hpos.
    { intros e He. destruct (Hop e He) as (n & k & Hk & Hu). assert (In n ns) as Hn by (apply (Hin e); [exact He|exists k; exact Hk]).
      destruct (proj1 (cs_dom C n) Hn) as [N HN']. exists n, k, N. auto. }
    assert (forall m e, is_node s m -> on s1 m e <-> on s m e) as Hon1.
    { intros m e Hm. unfold on, slot. cbn. rewrite (cs_old C Hm). reflexivity. }
    (* copied edges are not original edges *)
    assert (forall e f, In e es -> on s1 f (edict ee e) -> ~ is_node s f) as Hsep.
    { intros e f He Ho Hf. destruct (Hpos e He) as (n & k & N & _ & Hk & HnN & _). destruct (Hfe e n N k He HnN Hk) as [_ Q].
      apply (cs_sep C HnN (ex_intro _ k Q) Hf Ho). }
    assert (forall e x m, In e es -> is_node s m -> on s m x -> edict ee e <> x) as Hsep2.
    { intros e x m He Hm Hx E. apply (Hsep e m He); [|exact Hm]. rewrite E. apply Hon1; assumption. }
    assert (forall e e', In e es -> In e' es -> edict ee e = edict ee e' -> e = e') as Hinj.
    { intros e e' He He' E. destruct (Hpos e He) as (n & k & N & _ & Hk & HnN & _), (Hpos e' He') as (n' & k' & N' & _ & Hk' & HnN' & _).
      destruct (Hfe e n N k He HnN Hk) as [_ Q]. destruct (Hfe e' n' N' k' He' HnN' Hk') as [_ Q'].
      assert (slot s (n, k) = slot s (n', k')) as K by (apply (cs_slot C HnN HnN'); congruence). congruence. }
    assert (NoDup (es ++ fs)) as HNN.
    { apply NoDup_app_iff. split; [exact HN|]. split; [apply NoDup_map_in; assumption|].
      intros x Hx K. unfold fs in K. apply in_map_iff in K. destruct K as (e & E & He). destruct (Hpos x Hx) as (n & k & N & Hn & Hk & _).
      apply (Hsep2 e x n He); [apply Hnode, Hn|exists k; exact Hk|exact E]. }
    assert (NoDup (ns ++ Ns)) as HS.
    { apply NoDup_app_iff. split; [exact Hnd|]. split; [apply seq_NoDup|]. intros x Hx K. apply HNs in K. destruct K as (n & _ & K).
      apply (cs_new C K). apply Hnode, Hx. }
    pose proof (cs_wf C) as W1.
    assert (forall n N k e, dget d n = Some N -> slot s (n, k) = Some e -> dimat s1 (N, k) = dimat s (n, k)) as Hdm.
    { intros n N k e Hn Hk. destruct (slot_node Hk) as (nd & E & _). destruct (cs_node C Hn E) as (es' & Q & _).
      unfold dimat. cbn. rewrite E, Q. reflexivity. }
    destruct (@close_ok _ HS es fs s1 ee W1 HNN) as (s' & dict' & H4 & W' & Hnn' & SN & Hkeep & Hdict & Hjoin & Hval).
    { unfold fs. assert (forall e, In e es -> dget ee e = Some (edict ee e)) as Q.
      { intros e He. destruct (Hpos e He) as (n & k & N & _ & Hk & HnN & _). apply (Hfe e n N k He HnN Hk). }
      clear - Q. induction es as [|e r IH]; cbn [map]; constructor; [apply Q; left; reflexivity|apply IH; intros; apply Q; right; assumption]. }
    { intros x Hx. apply in_app_or in Hx. destruct Hx as [Hx|Hx].
      - destruct (Hpos x Hx) as (n & k & N & Hn & Hk & HnN & Hu). exists (n, k). cbn [fst snd].
        split; [apply in_or_app; left; exact Hn|]. split; [unfold slot; cbn; rewrite (cs_old C (proj1 (Hnode n Hn))); exact Hk|].
        rewrite (cs_olde C (ex_intro _ k Hk)). destruct (wf_slot W Hk) as (ed & E1 & E2 & E3 & E4 & E5). rewrite E1.
        assert (forall q, In q (ends ed) -> q = (n, k)) as Q by (intros q Hq; apply Hu, (ends_live W Hk E1 Hq)).
        destruct ed as [x1 a1 [y|] ds]; unfold ends in *; cbn in *.
        + exfalso. apply NoDup_cons_iff in E4. destruct E4 as [E4 _]. apply E4. left. rewrite (Q (x1, a1)), (Q y); auto.
        + specialize (Q (x1, a1) (or_introl eq_refl)). injection Q as -> ->. subst ds. reflexivity.
      - unfold fs in Hx. apply in_map_iff in Hx. destruct Hx as (e & <- & He). destruct (Hpos e He) as (n & k & N & Hn & Hk & HnN & Hu).
        destruct (Hfe e n N k He HnN Hk) as [_ Q].
        destruct (@copy_outside _ true s s1 ns d ee n N k e) as (f & Qf & Hopen); auto.
        { intros m Hm. apply Hnode, Hm. }
        rewrite Q in Qf. injection Qf as <-. exists (N, k). cbn [fst snd]. split; [apply in_or_app; right; apply HNs; eauto|]. split; [exact Q|].
        destruct (wf_slot W1 Q) as (ed & E1 & E2 & E3 & E4 & E5). rewrite E1.
        assert (forall q, In q (ends ed) -> q = (N, k)) as Qu.
        { intros q Hq. destruct Hopen as (k' & K1 & K2). rewrite (K2 q (ends_live W1 Q E1 Hq)). symmetry. apply K2. exact Q. }
        destruct ed as [x1 a1 [y|] ds]; unfold ends in *; cbn in *.
        + exfalso. apply NoDup_cons_iff in E4. destruct E4 as [E4 _]. apply E4. left. rewrite (Qu (x1, a1)), (Qu y); auto.
        + specialize (Qu (x1, a1) (or_introl eq_refl)). injection Qu as -> ->. subst ds. reflexivity. }
    { unfold fs. assert (forall e, In e es -> edim s1 e = edim s1 (edict ee e)) as Q.
      { intros e He. destruct (Hpos e He) as (n & k & N & Hn & Hk & HnN & _). destruct (Hfe e n N k He HnN Hk) as [_ Q].
        assert (slot s1 (n, k) = Some e) as Q' by (unfold slot; cbn; rewrite (cs_old C (proj1 (Hnode n Hn))); exact Hk).
        pose proof (edim_dimat W1 Q) as D1. pose proof (edim_dimat W1 Q') as D2. rewrite (Hdm n N k e HnN Hk) in D1.
        assert (dimat s1 (n, k) = dimat s (n, k)) as D3 by (unfold dimat; cbn; rewrite (cs_old C (proj1 (Hnode n Hn))); reflexivity). congruence. }
      clear - Q. induction es as [|e r IH]; cbn [map]; constructor; [apply Q; left; reflexivity|apply IH; intros; apply Q; right; assumption]. }
    assert (forall e, In e es -> edim s1 e = edim s e) as Hed.
    { intros e He. destruct (Hpos e He) as (n & k & N & Hn & Hk & HnN & _).
      assert (slot s1 (n, k) = Some e) as Q' by (unfold slot; cbn; rewrite (cs_old C (proj1 (Hnode n Hn))); exact Hk).
      pose proof (edim_dimat W1 Q') as D2. pose proof (edim_dimat W Hk) as D1.
      assert (dimat s1 (n, k) = dimat s (n, k)) as D3 by (unfold dimat; cbn; rewrite (cs_old C (proj1 (Hnode n Hn))); reflexivity). congruence. }
    exists s', ns, Ns, d, dict'. split.
    { unfold reduced_density, bind at 1, guard. rewrite Hg. unfold ret at 1. unfold bind. rewrite H1, H2, H3. cbn [fst snd]. rewrite H4. reflexivity. }
    assert (forall x n k, slot s1 (n, k) = Some x -> In n Ns -> ~ In x es) as HNe.
    { intros x n k Hk HnN Hx. apply HNs in HnN. destruct HnN as (m & _ & Hm). destruct (Hpos x Hx) as (n' & k' & N' & Hn' & Hk' & _).
      apply (cs_sep C Hm (ex_intro _ k Hk) (proj1 (Hnode n' Hn'))). apply Hon1; [apply Hnode, Hn'|exists k'; exact Hk']. }
    split.
    - exact W'.
    - split; [exact Hnd|exact Hns'].
    - split; [exact HF|]. split; [apply seq_NoDup|]. intros N HN' K. apply HNs in HN'. destruct HN' as (n & _ & Hn). apply (cs_new C Hn K).
    - intros m nd Hm. assert (is_node s m) as Q by (unfold is_node; congruence). pose proof (SN m) as K. rewrite (cs_old C Q), Hm in K.
      destruct (s_nodes s' m) as [[t e nm]|]; [|contradiction]. cbn in K. destruct K as (-> & -> & _). eauto.
    - intros n N nd Hn Hnd'. destruct (cs_node C Hn Hnd') as (es' & Q & _). pose proof (SN N) as K. rewrite Q in K.
      destruct (s_nodes s' N) as [[t e nm]|]; [|contradiction]. cbn in K. destruct K as (-> & -> & _). eauto.
    - intros e n N k He Hn Hk. destruct (In_nth_error _ _ He) as [i Hi].
      assert (nth_error fs i = Some (edict ee e)) as Hi' by (unfold fs; rewrite nth_error_map, Hi; reflexivity).
      assert (exists g p q, dget dict' e = Some g /\ slot s1 p = Some e /\ slot s1 q = Some (edict ee e) /\ slot s' p = Some g /\ slot s' q = Some g) as (g & p & q & T1 & T2 & T3 & T4 & T5).
      { clear - Hjoin Hi Hi'. revert i Hi Hi'. generalize dependent Hjoin. generalize fs. clear fs. intros fs0 HJ. induction HJ as [|x y l l' Hx _ IH]; intros [|i] Hi Hi'; cbn in *; try discriminate.
        - injection Hi as ->. injection Hi' as ->. exact Hx.
        - apply (IH i Hi Hi'). }
      assert (In n ns) as Hnn by (apply (cs_dom C); eauto).
      exists g. split; [exact T1|]. destruct (Hfe e n N k He Hn Hk) as [_ Q].
      assert (slot s1 (n, k) = Some e) as Q' by (unfold slot; cbn; rewrite (cs_old C (proj1 (Hnode n Hnn))); exact Hk).
      assert (p = (n, k)) as ->.
      { destruct (Hpos e He) as (n' & k' & N' & Hn' & Hk' & HnN' & Hu).
        assert (forall z, slot s1 z = Some e -> is_node s (fst z)) as Hz.
        { intros [z j] Hz. assert (is_node s1 z) as Q1 by (apply (@on_node _ s1 z e); exists j; exact Hz). cbn.
          destruct (cs_all C Q1) as [K|[m Hm]]; [exact K|]. exfalso. apply (HNe e z j Hz); [apply HNs; exists m; split; [apply (cs_dom C); eauto|exact Hm]|exact He]. }
        pose proof (Hz p T2) as Z. rewrite (Hu p), (Hu (n, k)); auto.
        unfold slot in *. rewrite (cs_old C Z) in T2. exact T2. }
      assert (q = (N, k)) as ->.
      { destruct (@copy_outside _ true s s1 ns d ee n N k e) as (f & Qf & Hopen); auto.
        { intros m Hm. apply Hnode, Hm. }
        { intros m l Hm Hl. destruct (Hpos e He) as (n' & k' & N' & _ & _ & _ & Hu). rewrite (Hu _ Hl), (Hu _ Hk). reflexivity. }
        rewrite Q in Qf. injection Qf as <-. destruct Hopen as (k' & K1 & K2). rewrite (K2 _ T3). symmetry. apply K2, Q. }
      auto.
    - intros e n k He Hk. assert (is_node s n) as Hn by (apply (@on_node _ s n e); exists k; exact Hk). apply Hkeep.
      + unfold slot. cbn. rewrite (cs_old C Hn). exact Hk.
      + intros K. apply in_app_or in K. destruct K as [K|K]; [contradiction|]. unfold fs in K. apply in_map_iff in K. destruct K as (x & E & Hx).
        apply (Hsep2 x e n Hx Hn); [exists k; exact Hk|exact E].
    - intros e n N k He Hn Hk Htr. rewrite (Hdict e He). assert (exists f, dget ee e = Some f) as [f Hf].
      { apply (cs_edom C). exists n. split; [apply (cs_dom C); eauto|exists k; exact Hk]. }
      rewrite Hf. split; [discriminate|]. pose proof (cs_edge C Hf Htr Hn Hk) as Q. apply Hkeep; [exact Q|].
      intros K. apply in_app_or in K. destruct K as [K|K].
      + apply (HNe f N k Q); [apply HNs; exists n; split; [apply (cs_dom C); eauto|exact Hn]|exact K].
      + unfold fs in K. apply in_map_iff in K. destruct K as (x & E & Hx). destruct (Hpos x Hx) as (n' & k' & N' & _ & Hk' & HnN' & _).
        destruct (Hfe x n' N' k' Hx HnN' Hk') as [_ Q']. rewrite E in Q'.
        assert (slot s (n, k) = slot s (n', k')) as K by (apply (cs_slot C Hn HnN'); congruence). rewrite Hk, Hk' in K. injection K as <-. contradiction.
    - intros a. rewrite Hval. replace (map (edim s1) es) with (map (edim s) es) by (apply map_ext_in; intros x Hx; symmetry; apply Hed, Hx).
      apply lsum_ext. intros vs Hvs. apply In_idxs in Hvs. pose proof (valid_length Hvs) as HLv. rewrite map_length in HLv.
      assert (length fs = length es) as HLf by (unfold fs; apply map_length).
      set (b := binds Nat.eq_dec (binds Nat.eq_dec a fs vs) es vs).
      rewrite netval_app.
      2:{ intros m n e Hm Hn H5 H6. apply HNs in Hn. destruct Hn as (n0 & _ & Hn0). apply (cs_sep C Hn0 H6 (proj1 (Hnode m Hm)) H5). }
      f_equal.
      + (* the state itself *)
        assert (netval s1 ns b = netval s ns b) as ->.
        { unfold netval. rewrite (@net_of_ext _ s s1 ns) by (intros m Hm; apply (cs_old C), Hnode, Hm). apply value_ext_dim. intros x Hx.
          apply In_net_labels in Hx. destruct Hx as (m & Hm & k & Hk).
          assert (slot s1 (m, k) = Some x) as Q' by (unfold slot; cbn; rewrite (cs_old C (proj1 (Hnode m Hm))); exact Hk).
          pose proof (edim_dimat W1 Q') as D2. pose proof (edim_dimat W Hk) as D1.
          assert (dimat s1 (m, k) = dimat s (m, k)) as D3 by (unfold dimat; cbn; rewrite (cs_old C (proj1 (Hnode m Hm))); reflexivity). congruence. }
        apply netval_ext_asg. intros x Hx. unfold b.
        destruct (in_dec Nat.eq_dec x es) as [Hx'|Hx']; [apply binds_agree; assumption|].
        rewrite !binds_other with (ls := es) by exact Hx'. apply binds_other. intros K. unfold fs in K. apply in_map_iff in K. destruct K as (e & E & He).
        assert (In x (net_labels (net_of s ns))) as Hl by (apply (count_occ_In Nat.eq_dec); lia).
        apply In_net_labels in Hl. destruct Hl as (m & Hm & Ho). apply (Hsep2 e x m He (proj1 (Hnode m Hm)) Ho E).
      + (* the conjugate copy *)
        rewrite (@copy_value _ true s s1 ns d ee Ns (binds Nat.eq_dec (fun e => a (edict dict' e)) es vs) b); auto; [intros m Hm; apply Hnode, Hm|].
        intros n N k e e' Hn Hk Hk' Hc. assert (In n ns) as Hnn by (apply (cs_dom C); eauto).
        destruct (in_dec Nat.eq_dec e es) as [He|He].
        * destruct (Hfe e n N k He Hn Hk) as [_ Q]. rewrite Hk' in Q. injection Q as ->.
          destruct (In_nth_error _ _ He) as [i Hi].
          assert (nth_error fs i = Some (edict ee e)) as Hi' by (unfold fs; rewrite nth_error_map, Hi; reflexivity).
          assert (~ In (edict ee e) es) as K by (apply (HNe _ N k Hk'); apply HNs; eauto).
          unfold b. rewrite binds_other by exact K.
          apply NoDup_app_iff in HNN. destruct HNN as (_ & HNf & _).
          pose proof (@binds_nth a fs vs i _ HNf ltac:(lia) Hi') as B1.
          pose proof (@binds_nth (fun e => a (edict dict' e)) es vs i _ HN HLv Hi) as B2. congruence.
        * assert (forall m, ~ between s m m e) as Htr.
          { intros m (p & q & Hpq & Hp & Hq & Sp & Sq). destruct p as [p1 p2], q as [q1 q2]. cbn in Hp, Hq. subst p1 q1.
            assert (In m ns) as Hm.
            { apply Hns' in Hnn. destruct Hnn as (e0 & n0 & Q1 & Q2 & Q3). apply Hns'. exists e0, n0. split; [exact Q1|]. split; [exact Q2|].
              apply (conn_step (m := n) (e := e) Q3); [exists k; exact Hk|exists p2; exact Sp]. }
            assert (p2 <> q2) as Hpq' by congruence. pose proof (trace_count Hm Sp Sq Hpq'). lia. }
          assert (exists f, dget ee e = Some f) as [f Hf].
          { apply (cs_edom C). exists n. split; [exact Hnn|exists k; exact Hk]. }
          pose proof (cs_edge C Hf Htr Hn Hk) as Q. rewrite Hk' in Q. injection Q as ->.
          rewrite binds_other with (ls := es) by exact He. unfold edict. rewrite (Hdict e He), Hf.
          assert (~ In f es) as K by (apply (HNe _ N k Hk'); apply HNs; eauto).
          unfold b. rewrite binds_other by exact K. apply binds_other. intros K'. unfold fs in K'. apply in_map_iff in K'. destruct K' as (x & E & Hx).
          destruct (Hpos x Hx) as (n' & k' & N' & _ & Hkx & HnN' & _).
          destruct (Hfe x n' N' k' Hx HnN' Hkx) as [_ Q']. rewrite E in Q'.
          assert (slot s (n, k) = slot s (n', k')) as K2 by (apply (cs_slot C Hn HnN'); congruence). rewrite Hk, Hkx in K2. injection K2 as <-. contradiction.
  Qed.

  (** an edge that does not dangle is refused before anything is done *)
  Theorem reduced_density_reject s es e n m : wf s -> In e es -> between s n m e -> reduced_density iter es s = (s, None).
  Proof using.
    intros W He Hb. unfold reduced_density, bind at 1, guard.
    replace (forallb (edge_dangling s) es) with false; [reflexivity|]. symmetry. apply not_true_iff_false. intros H.
    rewrite forallb_forall in H. specialize (H e He). destruct Hb as (p & q & Hpq & <- & <- & Sp & Sq). destruct p as [n k], q as [m l]. cbn in *.
    apply (edge_dangling_spec (n := n) W) in H; [|exists k; exact Sp]. destruct H as (k' & _ & Hu). rewrite (Hu _ Sp), (Hu _ Sq) in Hpq. congruence.
  Qed.
End Close.
