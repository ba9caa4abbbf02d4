(** * NetIso: networks with the same shape of wiring have the same value, up to a ring homomorphism *)
From Verif Require Import Prelude Algebra Tensor TensorFacts Einsum EinsumFacts NetworkFacts Graph GraphBase GraphContract GraphOps GraphValue GraphConnect GraphJoin NconTop GraphCopy.
Set Implicit Arguments.
Unset Strict Implicit.

Section Iso.
  Context {R : csr}.
  Variable h : R -> R.
  Hypothesis h_add : forall x y, h (x +! y) = h x +! h y.
  Hypothesis h_mul : forall x y, h (x *! y) = h x *! h y.
  Hypothesis h_0 : h r0 = r0.
  Hypothesis h_1 : h r1 = r1.
  Notation value := (value Nat.eq_dec).
  Notation netw := (list (factor nat R)).
  Notation cnt := (count_occ Nat.eq_dec).

  Lemma h_lsum A (l : list A) (f : A -> R) : h (lsum l f) = lsum l (fun x => h (f x)).
  Proof using h_0 h_add. induction l as [|x r IH]; [apply h_0|]. rewrite !lsum_cons, h_add, IH. reflexivity. Qed.
  Lemma h_esum dim ls (f : asg nat -> R) a : h (esum Nat.eq_dec dim ls f a) = esum Nat.eq_dec dim ls (fun b => h (f b)) a.
  Proof using h_0 h_add.
    revert a. induction ls as [|l r IH]; intros a; cbn [esum]; [reflexivity|].
    unfold nsum. rewrite h_lsum. apply lsum_ext. intros i _. apply IH.
  Qed.

  Lemma value_iso dim dim' (net net' : netw) (g : nat -> nat) a a' :
    Forall2 (fun x x' => (forall ix, elt (fst x') ix = h (elt (fst x) ix)) /\ snd x' = map g (snd x)) net net' ->
    (forall x y, In x (net_labels net) -> In y (net_labels net) -> g x = g y -> x = y) ->
    (forall x, In x (net_labels net) -> dim' (g x) = dim x) ->
    (forall x, cnt (net_labels net) x = 1 -> a' (g x) = a x) ->
    value dim' net' a' = h (value dim net a).
  Proof using h_0 h_1 h_add h_mul.
    intros HF Hg Hd Ha.
    assert (net_labels net' = map g (net_labels net)) as HL.
    { clear - HF. induction HF as [|x x' l l' [_ H] _ IH]; [reflexivity|].
      rewrite !net_labels_cons, map_app, IH, H. reflexivity. }
    assert (forall b, netprod net' b = h (netprod net (fun x => b (g x)))) as HP.
    { intros b. clear - HF h_1 h_mul. unfold netprod. induction HF as [|x x' l l' [He H] _ IH]; [rewrite !lprod_nil; auto|].
      rewrite (lprod_cons x l), (lprod_cons x' l'), h_mul. f_equal; [|exact IH]. unfold fval. rewrite He, H, map_map. reflexivity. }
    (* an assignment to the old labels that agrees with a' on all of them *)
    rewrite (@value_open nat Nat.eq_dec R dim net a (fun x => a' (g x)))
      by (intros x _ Hx; rewrite Ha by exact Hx; reflexivity).
    assert (forall x, In x (net_labels net) -> cnt (net_labels net') (g x) = cnt (net_labels net) x) as Hc.
    { intros x Hx. rewrite HL. apply count_map_inj. intros y Hy E. apply Hg; auto. }
    assert (Permutation (repeated Nat.eq_dec (net_labels net')) (map g (repeated Nat.eq_dec (net_labels net)))) as HR.
    { apply NoDup_Permutation.
      - apply NoDup_repeated.
      - apply NoDup_map_in; [|apply NoDup_repeated].
        intros x y Hx Hy. apply In_repeated in Hx, Hy. apply Hg; apply (count_occ_In Nat.eq_dec); lia.
      - intros z. rewrite In_repeated, in_map_iff. split.
        + intros Hz. assert (In z (net_labels net')) as Iz by (apply (count_occ_In Nat.eq_dec); lia).
          rewrite HL in Iz. apply in_map_iff in Iz. destruct Iz as (x & <- & Hx). exists x. split; [reflexivity|].
          apply In_repeated. rewrite <- Hc by exact Hx. exact Hz.
        + intros (x & <- & Hx). apply In_repeated in Hx. rewrite Hc; [exact Hx|]. apply (count_occ_In Nat.eq_dec). lia. }
    unfold Einsum.value, einsum.
    transitivity (esum Nat.eq_dec dim' (map g (repeated Nat.eq_dec (net_labels net))) (netprod net') a').
    { apply esum_perm; [eapply dep_ext; apply netprod_dep | apply NoDup_repeated | exact HR]. }
    rewrite h_esum.
    assert (forall ls, (forall x, In x ls -> In x (net_labels net)) -> forall b,
       esum Nat.eq_dec dim' (map g ls) (netprod net') b = esum Nat.eq_dec dim ls (fun c => h (netprod net c)) (fun x => b (g x))) as HE.
    { intros ls. induction ls as [|l r IH]; intros Hin b; cbn [esum map].
      - apply HP.
      - rewrite Hd by (apply Hin; left; reflexivity). apply nsum_ext. intros i _.
        rewrite IH by (intros x Hx; apply Hin; right; exact Hx).
        apply (@esum_dep' nat Nat.eq_dec R dim r _ (net_labels net)); [intros c c' Hcc; f_equal; apply netprod_dep; exact Hcc|].
        intros x Hx. unfold upd.
        destruct (Nat.eq_dec (g x) (g l)) as [E|E], (Nat.eq_dec x l) as [E'|E']; auto.
        + exfalso. apply E'. apply Hg; auto. apply Hin. left. reflexivity.
        + exfalso. apply E. congruence. }
    apply HE. intros x Hx. apply In_repeated in Hx. apply (count_occ_In Nat.eq_dec). lia.
  Qed.
End Iso.

Lemma dget_In A (d : list (nat * A)) k x : dget d k = Some x -> In (k, x) d.
Proof.
  induction d as [|[j y] r IH]; cbn [dget]; [discriminate|]. destruct (Nat.eqb_spec j k) as [->|Hj].
  - intros [= ->]. left. reflexivity.
  - intros H. right. apply IH, H.
Qed.
Lemma dget_None A (d : list (nat * A)) k : dget d k = None <-> ~ In k (map fst d).
Proof.
  induction d as [|[j y] r IH]; cbn [dget map fst]; [split; [intros _ []|reflexivity]|].
  destruct (Nat.eqb_spec j k) as [->|Hj].
  - split; [discriminate|]. intros H. exfalso. apply H. left. reflexivity.
  - rewrite IH. split; intros H K; apply H; [destruct K as [K|K]; [contradiction|exact K]|right; exact K].
Qed.
Lemma dget_fst A (d : list (nat * A)) k : In k (map fst d) -> exists x, dget d k = Some x.
Proof. intros H. destruct (dget d k) as [x|] eqn:E; [eauto|]. apply dget_None in E. contradiction. Qed.
Lemma dget_NoDup A (d : list (nat * A)) k x : NoDup (map fst d) -> In (k, x) d -> dget d k = Some x.
Proof.
  intros HN Hin. destruct (@dget_fst A d k) as [y Hy]; [apply in_map_iff; exists (k, x); auto|].
  rewrite Hy. f_equal. apply dget_In in Hy. clear - HN Hin Hy.
  induction d as [|[j z] r IH]; [destruct Hin|]. cbn [map fst] in HN. apply NoDup_cons_iff in HN. destruct HN as [H1 H2].
  destruct Hin as [Hin|Hin], Hy as [Hy|Hy].
  - congruence.
  - injection Hin as -> ->. exfalso. apply H1. apply in_map_iff. exists (k, y). auto.
  - injection Hy as -> ->. exfalso. apply H1. apply in_map_iff. exists (k, x). auto.
  - apply IH; auto.
Qed.

Section IsoS.
  Context {R : csr}.
  Notation st := (@st R).
  Implicit Types (s : st) (e : eid).
  Variable h : R -> R.
  Hypothesis h_add : forall x y, h (x +! y) = h x +! h y.
  Hypothesis h_mul : forall x y, h (x *! y) = h x *! h y.
  Hypothesis h_0 : h r0 = r0.
  Hypothesis h_1 : h r1 = r1.

  (** P pairs nodes of one network with nodes of another: same shapes, entries related by h, and two
      axes carry one edge in the first network exactly when they do in the second *)
  Record iso s s' (P : list (nid * nid)) : Prop := {
    iso_node : forall n N, In (n, N) P -> exists nd nd', s_nodes s n = Some nd /\ s_nodes s' N = Some nd' /\
      shape (n_t nd') = shape (n_t nd) /\ (forall ix, elt (n_t nd') ix = h (elt (n_t nd) ix)) /\
      length (n_edges nd') = length (n_edges nd);
    iso_slot : forall n N m M k l, In (n, N) P -> In (m, M) P -> slot s (n, k) <> None -> slot s (m, l) <> None ->
      (slot s (n, k) = slot s (m, l) <-> slot s' (N, k) = slot s' (M, l))
  }.

  Lemma iso_slot_some s s' P n N k e : iso s s' P -> In (n, N) P -> slot s (n, k) = Some e -> exists e', slot s' (N, k) = Some e'.
  Proof using.
    intros I Hin Hk. destruct (iso_node I Hin) as (nd & nd' & E & E' & _ & _ & HL). unfold slot in *. cbn [fst snd] in *.
    rewrite E in Hk. rewrite E'. destruct (nth_error (n_edges nd') k) eqn:K; [eauto|].
    apply nth_error_None in K. assert (k < length (n_edges nd)) by (apply nth_error_Some; congruence). lia.
  Qed.

  Theorem netval_iso s s' P a a' : wf s -> wf s' -> iso s s' P ->
    (forall n N k e e', In (n, N) P -> slot s (n, k) = Some e -> slot s' (N, k) = Some e' ->
       count_occ Nat.eq_dec (net_labels (net_of s (map fst P))) e = 1 -> a' e' = a e) ->
    netval s' (map snd P) a' = h (netval s (map fst P) a).
  Proof using h_0 h_1 h_add h_mul.
    intros W W' I Ha.
    set (pe := flat_map (fun p => combine (snd (fac s (fst p))) (snd (fac s' (snd p)))) P).
    assert (forall e e', In (e, e') pe -> exists n N k, In (n, N) P /\ slot s (n, k) = Some e /\ slot s' (N, k) = Some e') as Hpe.
    { intros e e' H. unfold pe in H. apply in_flat_map in H. destruct H as ([n N] & HP & H). cbn [fst snd] in H.
      apply In_nth_error in H. destruct H as [k Hk].
      exists n, N, k. split; [exact HP|]. destruct (iso_node I HP) as (nd & nd' & E & E' & _). unfold fac in Hk. rewrite E, E' in Hk.
      cbn [snd] in Hk. unfold slot. cbn [fst snd]. rewrite E, E'. clear - Hk.
      revert k Hk. generalize (n_edges nd'). induction (n_edges nd) as [|x r IH]; intros [|x' r'] [|k] Hk; cbn in *; try discriminate.
      - injection Hk as -> ->. auto.
      - apply IH. exact Hk. }
    assert (forall n N k e e', In (n, N) P -> slot s (n, k) = Some e -> slot s' (N, k) = Some e' -> In (e, e') pe) as Hep.
    { intros n N k e e' HP Hk Hk'. unfold pe. apply in_flat_map. exists (n, N). split; [exact HP|]. cbn [fst snd].
      unfold slot in Hk, Hk'. cbn [fst snd] in Hk, Hk'. unfold fac.
      destruct (s_nodes s n) as [nd|]; [|discriminate]. destruct (s_nodes s' N) as [nd'|]; [|discriminate]. cbn [snd].
      apply nth_error_In with (n := k). clear - Hk Hk'. revert k Hk Hk'. generalize (n_edges nd').
      induction (n_edges nd) as [|x r IH]; intros [|x' r'] [|k] H1 H2; cbn in *; try discriminate.
      - congruence.
      - apply IH; assumption. }
    assert (forall e e' f f', In (e, e') pe -> In (f, f') pe -> (e = f <-> e' = f')) as Hfun.
    { intros e e' f f' H1 H2. apply Hpe in H1, H2. destruct H1 as (n & N & k & HP & A & A'), H2 as (m & M & l & HQ & B & B').
      pose proof (@iso_slot _ _ _ I n N m M k l HP HQ) as K. rewrite A, B, A', B' in K.
      destruct K as [K1 K2]; try discriminate. split; intros ->; [specialize (K1 eq_refl)|specialize (K2 eq_refl)]; congruence. }
    set (g := fun e => match dget pe e with Some e' => e' | None => 0 end).
    assert (forall e e', In (e, e') pe -> g e = e') as Hg.
    { intros e e' H. unfold g. destruct (@dget_fst _ pe e) as [x Hx]; [apply in_map_iff; exists (e, e'); auto|]. rewrite Hx.
      apply dget_In in Hx. apply (proj1 (Hfun _ _ _ _ Hx H) eq_refl). }
    assert (forall e, In e (net_labels (net_of s (map fst P))) -> exists n N k e', In (n, N) P /\ slot s (n, k) = Some e /\ slot s' (N, k) = Some e') as Hlab.
    { intros e He. unfold net_labels, net_of in He. apply in_flat_map in He. destruct He as (x & Hx & He).
      rewrite map_map in Hx. apply in_map_iff in Hx. destruct Hx as ([n N] & <- & HP). cbn [fst snd] in He.
      destruct (iso_node I HP) as (nd & nd' & E & E' & _). unfold fac in He. rewrite E in He. cbn [snd] in He.
      apply In_nth_error in He. destruct He as [k Hk].
      assert (slot s (n, k) = Some e) as Hs by (unfold slot; cbn [fst snd]; rewrite E; exact Hk).
      destruct (iso_slot_some I HP Hs) as [e' He']. exists n, N, k, e'. auto. }
    unfold netval. apply value_iso with (g := g); auto.
    - unfold net_of. rewrite !map_map. clear Ha.
      assert (forall n N, In (n, N) P -> snd (fac s' N) = map g (snd (fac s n)) /\ forall ix, elt (fst (fac s' N)) ix = h (elt (fst (fac s n)) ix)) as Hf.
      { intros n N HP. destruct (iso_node I HP) as (nd & nd' & E & E' & _ & He & HL). unfold fac. rewrite E, E'. cbn [fst snd].
        split; [|exact He]. apply nth_error_ext. intros k. rewrite nth_error_map.
        destruct (nth_error (n_edges nd) k) as [e|] eqn:Ek; cbn [option_map].
        - assert (slot s (n, k) = Some e) as Hs by (unfold slot; cbn [fst snd]; rewrite E; exact Ek).
          destruct (iso_slot_some I HP Hs) as [e' He']. rewrite (Hg _ _ (Hep _ _ _ _ _ HP Hs He')).
          unfold slot in He'. cbn [fst snd] in He'. rewrite E' in He'. exact He'.
        - apply nth_error_None. apply nth_error_None in Ek. lia. }
      clearbody g. clear - Hf. induction P as [|[n N] r IH]; cbn [map]; constructor.
      + cbn [fst snd]. destruct (Hf n N) as [A B]; [left; reflexivity|]. auto.
      + apply IH. intros. apply Hf. right. assumption.
    - intros x y Hx Hy E. destruct (Hlab x Hx) as (n & N & k & x' & HP & A & A'). destruct (Hlab y Hy) as (m & M & l & y' & HQ & B & B').
      pose proof (Hep _ _ _ _ _ HP A A') as P1. pose proof (Hep _ _ _ _ _ HQ B B') as P2.
      apply (proj2 (Hfun _ _ _ _ P1 P2)). rewrite <- (Hg _ _ P1), <- (Hg _ _ P2). exact E.
    - intros x Hx. destruct (Hlab x Hx) as (n & N & k & x' & HP & A & A'). rewrite (Hg _ _ (Hep _ _ _ _ _ HP A A')).
      destruct (iso_node I HP) as (nd & nd' & E & E' & Hsh & _).
      pose proof (edim_dimat W A) as D. pose proof (edim_dimat W' A') as D'.
      unfold dimat in D, D'. cbn [fst snd] in D, D'. rewrite E in D. rewrite E', Hsh in D'. congruence.
    - intros x Hx. destruct (Hlab x) as (n & N & k & x' & HP & A & A').
      { apply (count_occ_In Nat.eq_dec). lia. }
      rewrite (Hg _ _ (Hep _ _ _ _ _ HP A A')). apply (Ha n N k); assumption.
  Qed.
End IsoS.
