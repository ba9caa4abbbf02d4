(** * GraphJoin: the value of a network after two open axes are joined into one edge *)
From Verif Require Import Prelude Algebra Tensor TensorFacts Einsum EinsumFacts NetworkFacts Graph GraphBase GraphContract GraphOps GraphValue GraphConnect.
Set Implicit Arguments.
Unset Strict Implicit.

Section GJ.
  Context {R : csr}.
  Notation st := (@st R).
  Implicit Types (s : st) (e : eid).
  Add Ring Rring : (rsr R).
  Notation cnt := (count_occ Nat.eq_dec).

  Definition relabel (f : nat -> nat) (x : factor nat R) : factor nat R := (fst x, map f (snd x)).

  Lemma cnt_ren2 e1 e2 e ls x : e1 <> e2 -> ~ In e ls ->
    cnt (map (ren2 e1 e2 e) ls) x = if Nat.eqb x e then cnt ls e1 + cnt ls e2
                                    else if Nat.eqb x e1 || Nat.eqb x e2 then 0 else cnt ls x.
  Proof.
    intros Hne. induction ls as [|y r IH]; intros He; cbn [map count_occ].
    - destruct (Nat.eqb x e), (Nat.eqb x e1 || Nat.eqb x e2); reflexivity.
    - rewrite IH by (intros K; apply He; right; exact K). cbn in He. unfold ren2.
      destruct (Nat.eqb_spec y e1), (Nat.eqb_spec y e2), (Nat.eqb_spec x e), (Nat.eqb_spec x e1), (Nat.eqb_spec x e2); cbn [orb];
        repeat match goal with |- context [Nat.eq_dec ?a ?b] => destruct (Nat.eq_dec a b) end; subst; try congruence; try lia; tauto.
  Qed.

  Lemma net_labels_relabel f (net : list (factor nat R)) : net_labels (map (relabel f) net) = map f (net_labels net).
  Proof.
    unfold net_labels. induction net as [|x r IH]; cbn; [reflexivity|]. rewrite map_app, IH. reflexivity.
  Qed.
  Lemma netprod_relabel f (net : list (factor nat R)) a : netprod (map (relabel f) net) a = netprod net (fun x => a (f x)).
  Proof.
    unfold netprod. rewrite lprod_map. apply lprod_ext. intros x _. unfold fval, relabel. cbn. rewrite map_map. reflexivity.
  Qed.

  Lemma esum_ren2 dim rep (f : asg nat -> R) D e1 e2 e i a :
    (forall a b, (forall x, In x D -> a x = b x) -> f a = f b) -> ~ In e D -> e1 <> e2 ->
    ~ In e rep -> ~ In e1 rep -> ~ In e2 rep ->
    esum Nat.eq_dec dim rep (fun b => f (fun x => b (ren2 e1 e2 e x))) (upd Nat.eq_dec a e i)
    = esum Nat.eq_dec dim rep f (upd Nat.eq_dec (upd Nat.eq_dec a e1 i) e2 i).
  Proof.
    intros Hf HeD Hne H0 H1 H2.
    assert (forall a b, (forall x, x <> e -> a (ren2 e1 e2 e x) = b x) ->
      esum Nat.eq_dec dim rep (fun b => f (fun x => b (ren2 e1 e2 e x))) a = esum Nat.eq_dec dim rep f b) as G.
    { clear a i. induction rep as [|l r IH]; intros a b E.
      - cbn. apply Hf. intros x Hx. apply E. intros ->. contradiction.
      - rewrite !esum_cons. apply nsum_ext. intros j _. cbn in H0, H1, H2. apply IH; try tauto.
        intros x Hx. unfold upd. destruct (Nat.eq_dec x l) as [->|Hxl].
        + assert (ren2 e1 e2 e l = l) as ->.
          { unfold ren2. destruct (Nat.eqb_spec l e1), (Nat.eqb_spec l e2); subst; try tauto; reflexivity. }
          destruct (Nat.eq_dec l l); congruence.
        + destruct (Nat.eq_dec (ren2 e1 e2 e x) l) as [K|_]; [|apply E; exact Hx].
          exfalso. unfold ren2 in K. destruct (Nat.eqb x e1 || Nat.eqb x e2); subst; tauto. }
    apply G. intros x Hx. unfold upd, ren2.
    destruct (Nat.eqb_spec x e1), (Nat.eqb_spec x e2); cbn [orb];
      repeat match goal with |- context [Nat.eq_dec ?a ?b] => destruct (Nat.eq_dec a b) end; congruence.
  Qed.

  Theorem value_join dim dim' (net : list (factor nat R)) e1 e2 e a :
    e1 <> e2 -> cnt (net_labels net) e1 = 1 -> cnt (net_labels net) e2 = 1 -> ~ In e (net_labels net) ->
    (forall x, In x (net_labels net) -> x <> e1 -> x <> e2 -> dim' x = dim x) ->
    value Nat.eq_dec dim' (map (relabel (ren2 e1 e2 e)) net) a
    = nsum (dim' e) (fun i => value Nat.eq_dec dim net (upd Nat.eq_dec (upd Nat.eq_dec a e1 i) e2 i)).
  Proof.
    intros Hne C1 C2 He Hd. unfold value.
    assert (In e1 (net_labels net)) as I1 by (apply (count_occ_In Nat.eq_dec); lia).
    assert (In e2 (net_labels net)) as I2 by (apply (count_occ_In Nat.eq_dec); lia).
    assert (~ In e (repeated Nat.eq_dec (net_labels net))) as R0.
    { intros K. apply In_repeated in K. rewrite (proj1 (count_occ_not_In Nat.eq_dec _ _) He) in K. lia. }
    assert (~ In e1 (repeated Nat.eq_dec (net_labels net))) as R1 by (intros K; apply In_repeated in K; lia).
    assert (~ In e2 (repeated Nat.eq_dec (net_labels net))) as R2 by (intros K; apply In_repeated in K; lia).
    rewrite (@einsum_perm_labels _ Nat.eq_dec R dim' _ (e :: repeated Nat.eq_dec (net_labels net))).
    - unfold einsum. rewrite esum_cons. apply nsum_ext. intros i _.
      rewrite (@esum_ext _ Nat.eq_dec R dim' _ _ (fun b => netprod net (fun x => b (ren2 e1 e2 e x)))) by (intros b; apply netprod_relabel).
      rewrite (@esum_ren2 dim' (repeated Nat.eq_dec (net_labels net)) (netprod net) (net_labels net) e1 e2 e i a); auto.
      + apply esum_ext_dim. intros x Hx. pose proof Hx as Hx'. apply In_repeated in Hx. apply Hd.
        * apply (count_occ_In Nat.eq_dec). lia.
        * intros ->. contradiction.
        * intros ->. contradiction.
      + apply netprod_dep.
    - apply NoDup_repeated.
    - rewrite net_labels_relabel. apply NoDup_Permutation.
      + apply NoDup_repeated.
      + constructor; [exact R0|apply NoDup_repeated].
      + intros x. cbn [In]. rewrite !In_repeated, cnt_ren2 by assumption.
        destruct (Nat.eqb_spec x e) as [->|Hx]; [lia|].
        destruct (Nat.eqb_spec x e1) as [->|]; cbn [orb]; [intuition lia|].
        destruct (Nat.eqb_spec x e2) as [->|]; cbn [orb]; intuition lia.
  Qed.

  (** a dangling edge occurs once, if its node is in S *)
  Lemma cnt_fac s n e : cnt (snd (fac s n)) e = length (filter (fun k => match slot s (n, k) with Some f => Nat.eqb f e | None => false end)
     (seq 0 (length (snd (fac s n))))).
  Proof.
    unfold fac, slot. cbn [fst snd]. destruct (s_nodes s n) as [nd|]; [|reflexivity]. cbn [snd].
    generalize (n_edges nd) as l. clear. intros l. induction l as [|x l IH] using rev_ind; [reflexivity|].
    rewrite count_occ_app, app_length, seq_app, filter_app, app_length, IH. cbn [length seq Nat.add filter count_occ].
    f_equal.
    - f_equal. apply filter_ext_in. intros k Hk. apply in_seq in Hk. rewrite nth_error_app1 by lia. reflexivity.
    - rewrite nth_error_app2, Nat.sub_diag by lia. cbn. destruct (Nat.eq_dec x e), (Nat.eqb_spec x e); try congruence; reflexivity.
  Qed.

  Lemma cnt_one s S n k e : NoDup S -> In n S -> slot s (n, k) = Some e -> (forall m j, slot s (m, j) = Some e -> (m, j) = (n, k)) ->
    cnt (net_labels (net_of s S)) e = 1.
  Proof.
    intros HS Hn Hs Hu.
    assert (cnt (snd (fac s n)) e = 1) as H1.
    { rewrite cnt_fac. assert (k < length (snd (fac s n))) as Hk.
      { unfold fac. unfold slot in Hs. cbn [fst snd] in Hs. destruct (s_nodes s n); [|discriminate]. apply nth_error_Some. cbn. congruence. }
      replace (filter _ _) with [k]; [reflexivity|]. symmetry. apply Permutation_length_1_inv. symmetry. apply NoDup_Permutation.
      - apply NoDup_filter, seq_NoDup.
      - repeat constructor. intros [].
      - intros j. rewrite filter_In, in_seq. cbn [In]. split.
        + intros [_ Hj]. destruct (slot s (n, j)) as [f|] eqn:Ef; [|discriminate]. apply Nat.eqb_eq in Hj. subst f.
          pose proof (Hu n j Ef). left. congruence.
        + intros [<-|[]]. split; [lia|]. rewrite Hs. apply Nat.eqb_refl. }
    assert (forall m, m <> n -> cnt (snd (fac s m)) e = 0) as H0.
    { intros m Hm. apply count_occ_not_In. intros K. apply In_nth_error in K. destruct K as [j Hj].
      assert (slot s (m, j) = Some e) as Hsj.
      { unfold slot, fac in *. cbn [fst snd] in *. destruct (s_nodes s m); [exact Hj|destruct j; discriminate]. }
      apply Hu in Hsj. congruence. }
    clear Hs Hu. unfold net_of. induction S as [|m r IH]; [destruct Hn|].
    apply NoDup_cons_iff in HS. destruct HS as [HS1 HS]. cbn [map]. rewrite net_labels_cons, count_occ_app.
    destruct Hn as [->|Hn].
    - rewrite H1. enough (cnt (net_labels (map (fac s) r)) e = 0) by lia.
      apply count_occ_not_In. intros K. unfold net_labels in K. apply in_flat_map in K. destruct K as (x & Hx & K).
      apply in_map_iff in Hx. destruct Hx as (m & <- & Hm). apply (count_occ_In Nat.eq_dec) in K. rewrite H0 in K; [lia|]. intros ->. contradiction.
    - rewrite (IH HS Hn), H0; [reflexivity|]. intros ->. contradiction.
  Qed.

  Lemma connect_value s s' e1 e2 e p1 p2 S a :
    wf s -> connect_post s s' e1 e2 e p1 p2 -> NoDup S -> In (fst p1) S -> In (fst p2) S ->
    netval s' S a = nsum (edim s e1) (fun i => netval s S (upd Nat.eq_dec (upd Nat.eq_dec a e1 i) e2 i)).
  Proof.
    intros W C HS H1 H2. pose proof (connect_wf W C) as W'.
    assert (net_of s' S = map (relabel (ren2 e1 e2 e)) (net_of s S)) as En.
    { unfold net_of. rewrite map_map. apply map_ext. intros m. unfold fac. rewrite (connect_nodes m W C).
      destruct (s_nodes s m); reflexivity. }
    assert (forall p, slot s p = Some e1 -> p = p1) as U1.
    { intros p Hp. rewrite (dangling_slot W Hp (cp_ed1 C) eq_refl). cbn. rewrite <- surjective_pairing. reflexivity. }
    assert (forall p, slot s p = Some e2 -> p = p2) as U2.
    { intros p Hp. rewrite (dangling_slot W Hp (cp_ed2 C) eq_refl). cbn. rewrite <- surjective_pairing. reflexivity. }
    unfold netval. rewrite En. rewrite (@value_join (edim s) (edim s') (net_of s S) e1 e2 e a).
    - assert (edim s' e = edim s e1) as ->; [|reflexivity].
      assert (slot s' p1 = Some e) as K by (rewrite (cp_slot C); destruct (slot_eqb_spec p1 p1); [reflexivity|congruence]).
      pose proof (edim_dimat W' K) as K1. pose proof (edim_dimat W (cp_p1 C)) as K2. rewrite (same_nodes_dimat p1 (cp_same C)) in K1. congruence.
    - apply (cp_12 C).
    - apply (@cnt_one s S (fst p1) (snd p1)); auto; try rewrite <- surjective_pairing; try apply (cp_p1 C). intros m j Hm. apply U1. exact Hm.
    - apply (@cnt_one s S (fst p2) (snd p2)); auto; try rewrite <- surjective_pairing; try apply (cp_p2 C). intros m j Hm. apply U2. exact Hm.
    - intros K. apply (In_net_labels S e W) in K. destruct K as (m & k & _ & K). pose proof (slot_lt W K). rewrite (cp_e C) in *. lia.
    - intros x Hx X1 X2. apply (In_net_labels S x W) in Hx. destruct Hx as (m & k & _ & K).
      assert (slot s' (m, k) = Some x) as K'.
      { rewrite (cp_slot C). destruct (slot_eqb_spec (m, k) p1) as [E|]; [rewrite E, (cp_p1 C) in K; congruence|].
        destruct (slot_eqb_spec (m, k) p2) as [E|]; [rewrite E, (cp_p2 C) in K; congruence|]. exact K. }
      pose proof (edim_dimat W' K') as K1. pose proof (edim_dimat W K) as K2. rewrite (same_nodes_dimat (m, k) (cp_same C)) in K1. congruence.
  Qed.

  (** after a disconnection, joining the two new open axes gives back the old value *)
  Lemma disconnect_value s s' e f1 f2 p1 p2 S a :
    wf s -> disconnect_post s s' e f1 f2 p1 p2 -> NoDup S -> In (fst p1) S -> In (fst p2) S ->
    netval s S a = nsum (edim s e) (fun i => netval s' S (upd Nat.eq_dec (upd Nat.eq_dec a f1 i) f2 i)).
  Proof.
    intros W C HS H1 H2. pose proof (disconnect_wf W C) as W'. destruct (dp_f C) as [F1 F2].
    assert (forall p, slot s p = Some e -> p = p1 \/ p = p2) as Ue.
    { intros p Hp. pose proof (live_in_ends W Hp (dp_ed C)) as K. unfold ends in K. cbn in K. rewrite <- surjective_pairing in K.
      destruct K as [K|[K|[]]]; auto. }
    assert (slot s' p1 = Some f1) as P1 by (rewrite (dp_slot C); destruct (slot_eqb_spec p1 p1); [reflexivity|congruence]).
    assert (slot s' p2 = Some f2) as P2.
    { rewrite (dp_slot C). destruct (slot_eqb_spec p2 p1); [exfalso; apply (dp_p C); congruence|].
      destruct (slot_eqb_spec p2 p2); [reflexivity|congruence]. }
    assert (forall p, slot s' p = Some f1 -> p = p1) as U1.
    { intros p Hp. rewrite (dangling_slot W' Hp (dp_f1 C) eq_refl). cbn. rewrite <- surjective_pairing. reflexivity. }
    assert (forall p, slot s' p = Some f2 -> p = p2) as U2.
    { intros p Hp. rewrite (dangling_slot W' Hp (dp_f2 C) eq_refl). cbn. rewrite <- surjective_pairing. reflexivity. }
    assert (net_of s S = map (relabel (ren2 f1 f2 e)) (net_of s' S)) as En.
    { unfold net_of. rewrite map_map. apply map_ext. intros m. unfold fac. pose proof (dp_same C m) as H.
      destruct (s_nodes s m) as [a0|] eqn:Ea, (s_nodes s' m) as [b|] eqn:Eb; try contradiction; [|reflexivity].
      destruct H as (T1 & T2 & T3). unfold relabel. cbn. rewrite T1. f_equal. apply nth_error_ext. intros k. rewrite nth_error_map.
      assert (slot s (m, k) = nth_error (n_edges a0) k) as Sa by (unfold slot; cbn; rewrite Ea; reflexivity).
      assert (slot s' (m, k) = nth_error (n_edges b) k) as Sb by (unfold slot; cbn; rewrite Eb; reflexivity).
      rewrite <- Sa, <- Sb. rewrite (dp_slot C). unfold ren2.
      destruct (slot_eqb_spec (m, k) p1) as [Q|Q1]; [rewrite Q, (dp_p1 C); cbn; rewrite Nat.eqb_refl; reflexivity|].
      destruct (slot_eqb_spec (m, k) p2) as [Q|Q2]; [rewrite Q, (dp_p2 C); cbn; rewrite Nat.eqb_refl, orb_true_r; reflexivity|].
      destruct (slot s (m, k)) as [x|] eqn:Ex; [|reflexivity]. cbn. pose proof (slot_lt W Ex) as [_ Hlt].
      destruct (Nat.eqb_spec x f1), (Nat.eqb_spec x f2); try lia. reflexivity. }
    unfold netval. rewrite En. rewrite (@value_join (edim s') (edim s) (net_of s' S) f1 f2 e a); [reflexivity|lia| | | |].
    - apply (@cnt_one s' S (fst p1) (snd p1)); auto; try rewrite <- surjective_pairing; auto.
    - apply (@cnt_one s' S (fst p2) (snd p2)); auto; try rewrite <- surjective_pairing; auto.
    - intros K. apply (In_net_labels S e W') in K. destruct K as (m & k & _ & K). rewrite (dp_slot C) in K.
      pose proof (slot_lt W (dp_p1 C)) as [_ Hlt].
      destruct (slot_eqb_spec (m, k) p1); [injection K as K; lia|]. destruct (slot_eqb_spec (m, k) p2); [injection K as K; lia|].
      destruct (Ue _ K); contradiction.
    - intros x Hx X1 X2. apply (In_net_labels S x W') in Hx. destruct Hx as (m & k & _ & K).
      assert (slot s (m, k) = Some x) as K'.
      { pose proof K as K2. rewrite (dp_slot C) in K2. destruct (slot_eqb_spec (m, k) p1); [congruence|]. destruct (slot_eqb_spec (m, k) p2); [congruence|]. exact K2. }
      pose proof (edim_dimat W' K) as K1. pose proof (edim_dimat W K') as K2. rewrite (same_nodes_dimat (m, k) (dp_same C)) in K1. congruence.
  Qed.
End GJ.
