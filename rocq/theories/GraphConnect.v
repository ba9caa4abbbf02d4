(** * GraphConnect: connect and disconnect *)
From Verif Require Import Prelude Algebra Tensor TensorFacts Einsum EinsumFacts NetworkFacts Graph GraphBase GraphContract GraphOps GraphValue.
Set Implicit Arguments.
Unset Strict Implicit.

Lemma nth_error_ext A (l l' : list A) : (forall k, nth_error l k = nth_error l' k) -> l = l'.
Proof.
  revert l'. induction l as [|x r IH]; intros [|y r'] H; auto.
  - discriminate (H 0).
  - discriminate (H 0).
  - pose proof (H 0) as E. injection E as ->. f_equal. apply IH. intros k. apply (H (S k)).
Qed.

Section GN.
  Context {R : csr}.
  Notation st := (@st R).
  Notation M := (@M R).
  Notation node := (@node R).
  Implicit Types (s : st) (e : eid).

  (** same nodes, tensors, axis names and ranks; only the edges on the axes may differ *)
  Definition same_nodes s s' : Prop :=
    forall m, match s_nodes s m, s_nodes s' m with
              | Some a, Some b => n_t b = n_t a /\ n_names b = n_names a /\ length (n_edges b) = length (n_edges a)
              | None, None => True
              | _, _ => False
              end.

  Lemma same_nodes_refl s : same_nodes s s.
  Proof. intros m. destruct (s_nodes s m); auto. Qed.
  Lemma same_nodes_trans s s1 s2 : same_nodes s s1 -> same_nodes s1 s2 -> same_nodes s s2.
  Proof.
    intros A B m. specialize (A m). specialize (B m).
    destruct (s_nodes s m), (s_nodes s1 m), (s_nodes s2 m); try contradiction; auto. intuition congruence.
  Qed.
  Lemma same_nodes_dimat s s' p : same_nodes s s' -> dimat s' p = dimat s p.
  Proof.
    intros H. specialize (H (fst p)). unfold dimat. destruct (s_nodes s (fst p)), (s_nodes s' (fst p)); try contradiction; auto.
    destruct H as (-> & _). reflexivity.
  Qed.

  Lemma add_edge_slot n e ax ov s s' (x : unit) :
    add_edge n e ax ov s = (s', Some x) ->
    same_nodes s s' /\ s_edges s' = s_edges s /\ s_nn s' = s_nn s /\ s_ne s' = s_ne s /\
    (forall p, slot s' p = if slot_eqb p (n, ax) then Some e else slot s p) /\ slot s (n, ax) <> None.
  Proof.
    intros H. apply add_edge_inv in H. destruct H as (nd & Hn & Hr & Hl & ->). unfold with_node. cbn [s_edges s_nn s_ne].
    split; [|repeat split].
    - intros m. cbn [s_nodes]. unfold upd. destruct (Nat.eq_dec m n) as [->|]; [rewrite Hn; cbn; rewrite replace_nth_length; auto|].
      destruct (s_nodes s m); auto.
    - intros [m k]. unfold slot. cbn [fst snd s_nodes]. unfold upd, slot_eqb. cbn [fst snd].
      destruct (Nat.eq_dec m n) as [->|Hne].
      + rewrite Nat.eqb_refl, andb_true_r, Hn. cbn [n_edges]. rewrite nth_error_replace_nth.
        rewrite (proj2 (Nat.ltb_lt _ _)) by exact Hl. reflexivity.
      + destruct (Nat.eqb_spec m n); [contradiction|]. rewrite andb_false_r. reflexivity.
    - unfold slot. cbn [fst snd]. rewrite Hn. apply nth_error_Some. exact Hl.
  Qed.

  Lemma same_nodes_wf_base s s' : same_nodes s s' -> wf s -> s_nn s <= s_nn s' ->
    (forall n nd, s_nodes s' n = Some nd -> length (n_edges nd) = rank (n_t nd)) /\
    (forall n nd, s_nodes s' n = Some nd -> n < s_nn s').
  Proof.
    intros H W Hnn. split; intros n nd E; specialize (H n); rewrite E in H; destruct (s_nodes s n) as [a|] eqn:Ea; try contradiction;
      destruct H as (H1 & H2 & H3).
    - rewrite H1, H3. apply (wf_rank W Ea).
    - pose proof (wf_nn W Ea). lia.
  Qed.

  Lemma edge_dim_inv e s s' d ed : s_edges s e = Some ed -> edge_dim e s = (s', Some d) -> s' = s /\ dimat s (e_n1 ed, e_a1 ed) = Some d.
  Proof.
    unfold edge_dim. intros E H. apply bind_inv in H. destruct H as (ed' & s1 & H1 & H). apply get_edge_inv in H1. destruct H1 as (-> & H1 & _).
    rewrite E in H1. injection H1 as <-.
    apply bind_inv in H. destruct H as (nd & s1 & H1 & H). apply get_node_inv in H1. destruct H1 as [-> Hn].
    unfold dimat. cbn [fst snd]. rewrite Hn. destruct (nth_error (shape (n_t nd)) (e_a1 ed)); [|discriminate]. injection H as <- <-. auto.
  Qed.

  (** the slot of a dangling edge *)
  Lemma dangling_slot s e ed p : wf s -> slot s p = Some e -> s_edges s e = Some ed -> e_2 ed = None -> p = (e_n1 ed, e_a1 ed).
  Proof.
    intros W Hp E E2. pose proof (live_in_ends W Hp E) as K. unfold ends in K. rewrite E2 in K. destruct K as [K|[]]. auto.
  Qed.

  Record connect_post s s' (e1 e2 e : eid) (p1 p2 : nid * nat) : Prop := {
    cp_same : same_nodes s s';
    cp_e : e = s_ne s; cp_ne : s_ne s' = S (s_ne s); cp_nn : s_nn s' = s_nn s;
    cp_12 : e1 <> e2 /\ p1 <> p2;
    cp_p1 : slot s p1 = Some e1; cp_p2 : slot s p2 = Some e2;
    cp_ed1 : s_edges s e1 = Some (Edge (fst p1) (snd p1) None false);
    cp_ed2 : s_edges s e2 = Some (Edge (fst p2) (snd p2) None false);
    cp_dim : dimat s p1 = dimat s p2;
    cp_slot : forall p, slot s' p = if slot_eqb p p1 || slot_eqb p p2 then Some e else slot s p;
    cp_edge : s_edges s' e = Some (Edge (fst p1) (snd p1) (Some p2) false);
    cp_edges : forall f, f <> e -> s_edges s' f = s_edges s f
  }.

  Lemma connect_inv e1 e2 s s' e :
    wf s -> (exists p, slot s p = Some e1) -> (exists p, slot s p = Some e2) ->
    connect e1 e2 s = (s', Some e) ->
    exists p1 p2, connect_post s s' e1 e2 e p1 p2.
  Proof.
    intros W (q1 & L1) (q2 & L2) H. unfold connect in H.
    apply bind_inv in H. destruct H as (d1 & s1 & H1 & H). apply get_edge_inv in H1. destruct H1 as (-> & E1 & D1).
    apply bind_inv in H. destruct H as (d2 & s1 & H1 & H). apply get_edge_inv in H1. destruct H1 as (-> & E2 & D2).
    apply bind_inv in H. destruct H as (u1 & s1 & H1 & H). apply guard_inv in H1. destruct H1 as [Hd ->].
    apply andb_true_iff in Hd. destruct Hd as [Hd1 Hd2].
    apply bind_inv in H. destruct H as (u2 & s1 & H1 & H). apply guard_inv in H1. destruct H1 as [Hne ->].
    apply negb_true_iff, Nat.eqb_neq in Hne.
    apply bind_inv in H. destruct H as (m1 & s1 & H1 & H). apply (edge_dim_inv E1) in H1. destruct H1 as [-> M1].
    apply bind_inv in H. destruct H as (m2 & s1 & H1 & H). apply (edge_dim_inv E2) in H1. destruct H1 as [-> M2].
    apply bind_inv in H. destruct H as (u3 & s1 & H1 & H). apply guard_inv in H1. destruct H1 as [Hm ->]. apply Nat.eqb_eq in Hm. subst m2.
    destruct d1 as [n1 a1 [p|] ds1]; [discriminate|]. destruct d2 as [n2 a2 [p|] ds2]; [discriminate|].
    cbn [e_n1 e_a1 e_dis] in *. subst ds1 ds2.
    pose proof (dangling_slot W L1 E1 eq_refl) as ->. pose proof (dangling_slot W L2 E2 eq_refl) as ->. cbn [e_n1 e_a1] in *.
    apply bind_inv in H. destruct H as (e0 & s1 & H1 & H). injection H1 as <- <-.
    apply bind_inv in H. destruct H as (u4 & s2 & H1 & H). apply add_edge_slot in H1. destruct H1 as (A1 & A2 & A3 & A4 & A5 & _).
    apply bind_inv in H. destruct H as (u5 & s3 & H1 & H). apply add_edge_slot in H1. destruct H1 as (B1 & B2 & B3 & B4 & B5 & _).
    injection H as <- <-. cbn [s_edges s_nn s_ne] in *.
    exists (n1, a1), (n2, a2). split; cbn [fst snd]; auto.
    - apply (same_nodes_trans (s1 := s2)); [|exact B1]. intros m. specialize (A1 m). exact A1.
    - congruence.
    - congruence.
    - split; [exact Hne|]. intros K. injection K as -> ->. congruence.
    - congruence.
    - intros q. rewrite B5, A5. change (slot _ q) with (slot s q) at 1.
      destruct (slot_eqb q (n1, a1)), (slot_eqb q (n2, a2)); reflexivity.
    - rewrite B2, A2. apply upd_same.
    - intros f Hf. rewrite B2, A2. apply upd_other. exact Hf.
  Qed.

  Lemma connect_wf s s' e1 e2 e p1 p2 : wf s -> connect_post s s' e1 e2 e p1 p2 -> wf s'.
  Proof.
    intros W C. destruct C. destruct cp_13 as [Hne Hp].
    destruct (same_nodes_wf_base cp_same0 W) as [B1 B2]; [lia|].
    split; auto.
    - intros f fd Ef. rewrite cp_ne0. destruct (Nat.eq_dec f e) as [->|Hf]; [lia|]. rewrite cp_edges0 in Ef by exact Hf.
      pose proof (wf_ne W Ef). lia.
    - intros q f Hq. rewrite cp_slot0 in Hq.
      assert (forall z, dimat s' z = dimat s z) as Hd by (intros z; apply same_nodes_dimat; assumption).
      destruct (slot_eqb_spec q p1) as [->|Q1]; [|destruct (slot_eqb_spec q p2) as [->|Q2]]; cbn [orb] in Hq.
      + injection Hq as <-. eexists. split; [exact cp_edge0|]. unfold ends. cbn [e_dis e_n1 e_a1 e_2]. rewrite <- surjective_pairing.
        split; [reflexivity|]. split; [left; reflexivity|]. split.
        { constructor; [intros [K|[]]; congruence|]. constructor; [intros []|constructor]. }
        intros _ z [<-|[<-|[]]]; rewrite cp_slot0, !Hd.
        * destruct (slot_eqb_spec p1 p1); [auto|congruence].
        * destruct (slot_eqb_spec p2 p1); [congruence|]. destruct (slot_eqb_spec p2 p2); [auto|congruence].
      + injection Hq as <-. eexists. split; [exact cp_edge0|]. unfold ends. cbn [e_dis e_n1 e_a1 e_2]. rewrite <- surjective_pairing.
        split; [reflexivity|]. split; [right; left; reflexivity|]. split.
        { constructor; [intros [K|[]]; congruence|]. constructor; [intros []|constructor]. }
        intros _ z [<-|[<-|[]]]; rewrite cp_slot0, !Hd.
        * destruct (slot_eqb_spec p1 p1); [auto|congruence].
        * destruct (slot_eqb_spec p2 p1); [congruence|]. destruct (slot_eqb_spec p2 p2); [auto|congruence].
      + pose proof (slot_lt W Hq) as [_ Hlt].
        destruct (wf_slot W Hq) as (fd & F1 & F2 & F3 & F4 & F5).
        exists fd. split; [rewrite cp_edges0 by lia; exact F1|]. split; [exact F2|]. split; [exact F3|]. split; [exact F4|].
        intros _ z Hz. destruct (F5 (fun x => x) z Hz) as [G1 G2]. rewrite !Hd. split; [|exact G2].
        rewrite cp_slot0.
        destruct (slot_eqb_spec z p1) as [->|Z1]; [exfalso|destruct (slot_eqb_spec z p2) as [->|Z2]; [exfalso|exact G1]].
        * rewrite cp_p3 in G1. injection G1 as <-. rewrite cp_ed3 in F1. injection F1 as <-.
          destruct F3 as [K|[]]. cbn in K. rewrite <- surjective_pairing in K. congruence.
        * rewrite cp_p4 in G1. injection G1 as <-. rewrite cp_ed4 in F1. injection F1 as <-.
          destruct F3 as [K|[]]. cbn in K. rewrite <- surjective_pairing in K. congruence.
  Qed.

  (** the edge lists after a connection: both old edges renamed *)
  Definition ren2 (e1 e2 e x : nat) : nat := if Nat.eqb x e1 || Nat.eqb x e2 then e else x.

  Lemma connect_nodes s s' e1 e2 e p1 p2 m : wf s -> connect_post s s' e1 e2 e p1 p2 ->
    s_nodes s' m = option_map (fun nd => Node (n_t nd) (map (ren2 e1 e2 e) (n_edges nd)) (n_names nd)) (s_nodes s m).
  Proof.
    intros W C. pose proof (cp_same C m) as H. destruct (s_nodes s m) as [a|] eqn:Ea, (s_nodes s' m) as [b|] eqn:Eb; try contradiction; auto.
    cbn. destruct b as [bt be bn]. cbn in H. destruct H as (-> & -> & H3). do 2 f_equal.
    apply nth_error_ext. intros k.
    assert (slot s' (m, k) = nth_error be k) as Sb by (unfold slot; cbn; rewrite Eb; reflexivity).
    assert (slot s (m, k) = nth_error (n_edges a) k) as Sa by (unfold slot; cbn; rewrite Ea; reflexivity).
    rewrite <- Sb, nth_error_map, <- Sa, (cp_slot C). unfold ren2.
    destruct (slot_eqb_spec (m, k) p1) as [E|E1].
    - rewrite E, (cp_p1 C). cbn. rewrite Nat.eqb_refl. reflexivity.
    - destruct (slot_eqb_spec (m, k) p2) as [E|E2].
      + rewrite E, (cp_p2 C). cbn. rewrite Nat.eqb_refl, orb_true_r. reflexivity.
      + cbn. destruct (slot s (m, k)) as [f|] eqn:Ef; [|reflexivity]. cbn.
        destruct (Nat.eqb_spec f e1) as [->|]; [exfalso|destruct (Nat.eqb_spec f e2) as [->|]; [exfalso|reflexivity]].
        * apply E1. rewrite (dangling_slot W Ef (cp_ed1 C) eq_refl). cbn. rewrite <- surjective_pairing. reflexivity.
        * apply E2. rewrite (dangling_slot W Ef (cp_ed2 C) eq_refl). cbn. rewrite <- surjective_pairing. reflexivity.
  Qed.

  (** disconnect *)
  Record disconnect_post s s' (e f1 f2 : eid) (p1 p2 : nid * nat) : Prop := {
    dp_same : same_nodes s s';
    dp_f : f1 = s_ne s /\ f2 = S (s_ne s); dp_ne : s_ne s' = S (S (s_ne s)); dp_nn : s_nn s' = s_nn s;
    dp_p : p1 <> p2; dp_p1 : slot s p1 = Some e; dp_p2 : slot s p2 = Some e;
    dp_ed : s_edges s e = Some (Edge (fst p1) (snd p1) (Some p2) false);
    dp_slot : forall p, slot s' p = if slot_eqb p p1 then Some f1 else if slot_eqb p p2 then Some f2 else slot s p;
    dp_f1 : s_edges s' f1 = Some (Edge (fst p1) (snd p1) None false);
    dp_f2 : s_edges s' f2 = Some (Edge (fst p2) (snd p2) None false);
    dp_edges : forall f, f <> f1 -> f <> f2 -> s_edges s' f = s_edges s f
  }.

  Lemma disconnect_inv e s s' f1 f2 :
    wf s -> (exists p, slot s p = Some e) -> disconnect e s = (s', Some (f1, f2)) ->
    exists p1 p2, disconnect_post s s' e f1 f2 p1 p2.
  Proof.
    intros W (q & L) H. unfold disconnect in H.
    apply bind_inv in H. destruct H as (ed & s1 & H1 & H). apply get_edge_inv in H1. destruct H1 as (-> & E & D).
    destruct ed as [n1 a1 [[n2 a2]|] ds]; [|discriminate]. cbn [e_n1 e_a1 e_2 e_dis] in *. subst ds.
    apply bind_inv in H. destruct H as (g1 & s1 & H1 & H). injection H1 as <- <-.
    apply bind_inv in H. destruct H as (g2 & s1 & H1 & H). injection H1 as <- <-. cbn [s_nodes s_edges s_nn s_ne] in *.
    apply bind_inv in H. destruct H as (u1 & s2 & H1 & H). apply add_edge_slot in H1. destruct H1 as (A1 & A2 & A3 & A4 & A5 & _).
    apply bind_inv in H. destruct H as (u2 & s3 & H1 & H). apply add_edge_slot in H1. destruct H1 as (B1 & B2 & B3 & B4 & B5 & _).
    injection H as <- <- <-. cbn [s_nodes s_edges s_nn s_ne] in *.
    pose proof (ends_live W L E (or_introl eq_refl)) as P1. pose proof (ends_live W L E (or_intror (or_introl eq_refl))) as P2.
    cbn [e_n1 e_a1] in P1.
    assert ((n1, a1) <> (n2, a2)) as Hne.
    { destruct (wf_slot W L) as (ed & K & _ & _ & Hnd & _). rewrite E in K. injection K as <-. unfold ends in Hnd. cbn in Hnd.
      apply NoDup_cons_iff in Hnd. destruct Hnd as [Hx _]. intros K. apply Hx. left. congruence. }
    exists (n1, a1), (n2, a2). split; cbn [fst snd]; auto.
    - apply (same_nodes_trans (s1 := s2)); [|exact B1]. intros m. specialize (A1 m). exact A1.
    - congruence.
    - congruence.
    - intros z. rewrite B5, A5. change (slot _ z) with (slot s z) at 1.
      destruct (slot_eqb_spec z (n1, a1)) as [K1|K1], (slot_eqb_spec z (n2, a2)) as [K2|K2]; congruence.
    - rewrite B2, A2. unfold upd. destruct (Nat.eq_dec (s_ne s) (S (s_ne s))); [lia|]. destruct (Nat.eq_dec (s_ne s) (s_ne s)); [reflexivity|congruence].
    - rewrite B2, A2. apply upd_same.
    - intros f Hf1 Hf2. rewrite B2, A2. rewrite !upd_other by auto. reflexivity.
  Qed.

  Lemma disconnect_wf s s' e f1 f2 p1 p2 : wf s -> disconnect_post s s' e f1 f2 p1 p2 -> wf s'.
  Proof.
    intros W C. destruct C. destruct dp_f0 as [-> ->].
    destruct (same_nodes_wf_base dp_same0 W) as [B1 B2]; [lia|].
    split; auto.
    - intros f fd Ef. rewrite dp_ne0. destruct (Nat.eq_dec f (s_ne s)) as [->|Hf]; [lia|]. destruct (Nat.eq_dec f (S (s_ne s))) as [->|Hf']; [lia|].
      rewrite dp_edges0 in Ef by assumption. pose proof (wf_ne W Ef). lia.
    - intros q f Hq. pose proof Hq as Hq'. rewrite dp_slot0 in Hq.
      assert (forall z, dimat s' z = dimat s z) as Hd by (intros z; apply same_nodes_dimat; assumption).
      destruct (slot_eqb_spec q p1) as [->|Q1]; [|destruct (slot_eqb_spec q p2) as [->|Q2]].
      + injection Hq as <-. eexists. split; [exact dp_f3|]. unfold ends. cbn [e_dis e_n1 e_a1 e_2]. rewrite <- surjective_pairing.
        split; [reflexivity|]. split; [left; reflexivity|]. split; [repeat constructor; intros []|].
        intros _ z [<-|[]]. auto.
      + injection Hq as <-. eexists. split; [exact dp_f4|]. unfold ends. cbn [e_dis e_n1 e_a1 e_2]. rewrite <- surjective_pairing.
        split; [reflexivity|]. split; [left; reflexivity|]. split; [repeat constructor; intros []|].
        intros _ z [<-|[]]. auto.
      + pose proof (slot_lt W Hq) as [_ Hlt].
        destruct (wf_slot W Hq) as (fd & F1 & F2 & F3 & F4 & F5).
        exists fd. split; [rewrite dp_edges0 by lia; exact F1|]. split; [exact F2|]. split; [exact F3|]. split; [exact F4|].
        intros _ z Hz. destruct (F5 (fun x => x) z Hz) as [G1 G2]. rewrite !Hd. split; [|exact G2].
        rewrite dp_slot0.
        destruct (slot_eqb_spec z p1) as [->|Z1]; [exfalso|destruct (slot_eqb_spec z p2) as [->|Z2]; [exfalso|exact G1]].
        * rewrite dp_p3 in G1. injection G1 as <-. rewrite dp_ed0 in F1. injection F1 as <-.
          unfold ends in F3. cbn [e_n1 e_a1 e_2] in F3. rewrite <- surjective_pairing in F3. destruct F3 as [K|[K|[]]]; congruence.
        * rewrite dp_p4 in G1. injection G1 as <-. rewrite dp_ed0 in F1. injection F1 as <-.
          unfold ends in F3. cbn [e_n1 e_a1 e_2] in F3. rewrite <- surjective_pairing in F3. destruct F3 as [K|[K|[]]]; congruence.
  Qed.
End GN.
