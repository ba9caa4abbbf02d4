(** * GraphCopyFacts: copy builds a fresh isomorphic network and leaves the original alone *)
From Verif Require Import Prelude Algebra Tensor TensorFacts Einsum EinsumFacts NetworkFacts Graph GraphBase GraphContract GraphOps GraphValue GraphConnect GraphJoin GraphQuery GraphQueryFacts GraphCopy NetIso.
Set Implicit Arguments.
Unset Strict Implicit.

Section Puts.
  Context {R : csr}.
  Notation st := (@st R).
  Implicit Types (s : st) (e f : eid) (p q : nid * nat).

  Lemma nodes_eq s s' m : same_nodes s s' -> (forall k, slot s' (m, k) = slot s (m, k)) -> s_nodes s' m = s_nodes s m.
  Proof.
    intros H Hk. specialize (H m). unfold slot in Hk. cbn [fst snd] in Hk.
    destruct (s_nodes s m) as [[t es nm]|], (s_nodes s' m) as [[t' es' nm']|]; try contradiction; auto.
    cbn in *. destruct H as (-> & -> & _). rewrite (nth_error_ext Hk). reflexivity.
  Qed.

  Lemma add_edge_ok s n e ax old od : wf s -> slot s (n, ax) = Some old -> s_edges s old = Some od -> e_2 od = None ->
    exists s', add_edge n e ax false s = (s', Some tt).
  Proof.
    intros W Hs Ho Hd. unfold slot in Hs. cbn [fst snd] in Hs. destruct (s_nodes s n) as [nd|] eqn:E; [|discriminate].
    unfold add_edge, bind, get_node. rewrite E. unfold guard.
    assert (ax < rank (n_t nd)) as Hlt by (rewrite <- (wf_rank W E); apply nth_error_Some; congruence).
    rewrite (proj2 (Nat.ltb_lt _ _) Hlt). cbn. rewrite Hs, Ho. unfold is_dangling. rewrite Hd. cbn. eexists. reflexivity.
  Qed.

  (** the state after a new edge record [ed] has been put on the slots it points to *)
  Record put_post s s' f (ps : list (nid * nat)) : Prop := {
    pp_wf : wf s';
    pp_same : same_nodes s s';
    pp_nn : s_nn s' = s_nn s;
    pp_ne : s_ne s' = S (s_ne s);
    pp_f : f = s_ne s;
    pp_slot : forall q, slot s' q = if existsb (slot_eqb q) ps then Some f else slot s q;
    pp_edge : exists ed, s_edges s' f = Some ed /\ ends ed = ps;
    pp_edges : forall g, g <> f -> s_edges s' g = s_edges s g
  }.

  Definition open_at s p : Prop := exists old, slot s p = Some old /\ s_edges s old = Some (Edge (fst p) (snd p) None false).

  Lemma wfx_alloc s ed : wf s -> wf (St (s_nodes s) (upd Nat.eq_dec (s_edges s) (s_ne s) (Some ed)) (s_nn s) (S (s_ne s))).
  Proof.
    intros W. split; cbn [s_nodes s_edges s_nn s_ne].
    - apply (wf_rank W).
    - apply (wf_nn W).
    - intros e ed' H. unfold upd in H. destruct (Nat.eq_dec e (s_ne s)); [lia|]. pose proof (wf_ne W H). lia.
    - intros p e Hp. destruct (slot_lt W Hp) as [_ Hlt]. destruct (wf_slot W Hp) as (ed' & H1 & H2).
      exists ed'. split; [|exact H2]. rewrite upd_other by lia. exact H1.
  Qed.

End Puts.

Section PutOk.
  Context {R : cjr}.
  Notation st := (@st R).
  Implicit Types (s : st) (e f : eid) (p q : nid * nat).

  Lemma put_open_ok s p : wf s -> open_at s p -> exists s', put_open p s = (s', Some (s_ne s)) /\ put_post s s' (s_ne s) [p].
  Proof.
    intros W (old & Hs & Ho).
    set (s1 := St (s_nodes s) (upd Nat.eq_dec (s_edges s) (s_ne s) (Some (Edge (fst p) (snd p) None false))) (s_nn s) (S (s_ne s))).
    assert (wf s1) as W1 by (apply wfx_alloc; exact W).
    destruct (slot_lt W Hs) as [_ Hlt].
    destruct (@add_edge_ok _ s1 (fst p) (s_ne s) (snd p) old (Edge (fst p) (snd p) None false) W1) as [s' H].
    { rewrite <- surjective_pairing. exact Hs. }
    { unfold s1. cbn [s_edges]. rewrite upd_other by lia. exact Ho. }
    { reflexivity. }
    exists s'. unfold put_open, bind, alloc_edge. fold s1. rewrite H. split; [reflexivity|].
    apply add_edge_slot in H. destruct H as (A1 & A2 & A3 & A4 & A5 & _). rewrite <- surjective_pairing in A5.
    assert (same_nodes s s') as SN by exact A1.
    assert (forall g, g <> s_ne s -> s_edges s' g = s_edges s g) as HE.
    { intros g Hg. rewrite A2. unfold s1. cbn [s_edges]. rewrite upd_other by exact Hg. reflexivity. }
    assert (s_edges s' (s_ne s) = Some (Edge (fst p) (snd p) None false)) as HN.
    { rewrite A2. unfold s1. cbn [s_edges]. apply upd_same. }
    destruct (same_nodes_wf_base SN W) as [B1 B2]; [rewrite A3; unfold s1; cbn; lia|].
    split; auto.
    - split; auto.
      + intros e ed H. rewrite A4. unfold s1. cbn [s_ne]. destruct (Nat.eq_dec e (s_ne s)); [lia|]. rewrite HE in H by assumption.
        pose proof (wf_ne W H). lia.
      + intros q e Hq. rewrite A5 in Hq. assert (forall z, dimat s' z = dimat s z) as Hd by (intros z; apply same_nodes_dimat; assumption).
        destruct (slot_eqb_spec q p) as [->|Q].
        * injection Hq as <-. eexists. split; [exact HN|]. unfold ends. cbn [e_dis e_n1 e_a1 e_2]. rewrite <- surjective_pairing.
          split; [reflexivity|]. split; [left; reflexivity|]. split; [constructor; [intros []|constructor]|].
          intros _ z [<-|[]]. rewrite A5. destruct (slot_eqb_spec p p); [|congruence]. auto.
        * change (slot s1 q) with (slot s q) in Hq. destruct (slot_lt W Hq) as [_ Hl].
          destruct (wf_slot W Hq) as (ed & H1 & H2 & H3 & H4 & H5). exists ed. rewrite HE by lia. repeat (split; auto).
          -- rewrite A5. destruct (slot_eqb_spec q0 p) as [->|]; [|exact (proj1 (H5 (fun x => x) q0 H0))].
             exfalso. assert (e = old) as -> by (pose proof (proj1 (H5 (fun x => x) p H0)); congruence).
             rewrite Ho in H1. injection H1 as <-. unfold ends in H3. cbn in H3. rewrite <- surjective_pairing in H3. destruct H3 as [H3|[]]. congruence.
          -- rewrite !Hd. apply (proj2 (H5 (fun x => x) q0 H0)).
    - intros q. rewrite A5. cbn [existsb]. rewrite orb_false_r. reflexivity.
    - eexists. split; [exact HN|]. unfold ends. cbn. rewrite <- surjective_pairing. reflexivity.
  Qed.

  Lemma put_joined_ok s p1 p2 q1 q2 : wf s -> p1 <> p2 -> open_at s p1 -> open_at s p2 -> dimat s p1 = dimat s p2 ->
    (q1, q2) = (p1, p2) \/ (q1, q2) = (p2, p1) ->
    exists s', put_joined p1 p2 q1 q2 s = (s', Some (s_ne s)) /\ put_post s s' (s_ne s) [p1; p2].
  Proof.
    intros W Hne O1 O2 Hdim Hq.
    set (s1 := St (s_nodes s) (upd Nat.eq_dec (s_edges s) (s_ne s) (Some (Edge (fst p1) (snd p1) (Some p2) false))) (s_nn s) (S (s_ne s))).
    assert (wf s1) as W1 by (apply wfx_alloc; exact W).
    assert (q1 <> q2 /\ open_at s q1 /\ open_at s q2) as (Hq12 & (o1 & S1 & E1) & (o2 & S2 & E2)).
    { destruct Hq as [Hq|Hq]; injection Hq as -> ->; auto. }
    destruct (slot_lt W S1) as [_ L1]. destruct (slot_lt W S2) as [_ L2].
    destruct (@add_edge_ok _ s1 (fst q1) (s_ne s) (snd q1) o1 (Edge (fst q1) (snd q1) None false) W1) as [s2 H2].
    { rewrite <- surjective_pairing. exact S1. }
    { unfold s1. cbn [s_edges]. rewrite upd_other by lia. exact E1. }
    { reflexivity. }
    pose proof (add_edge_slot H2) as (A1 & A2 & A3 & A4 & A5 & _). rewrite <- surjective_pairing in A5.
    (* the intermediate state is not well formed, so the second add_edge is done by hand *)
    assert (exists s', add_edge (fst q2) (s_ne s) (snd q2) false s2 = (s', Some tt)) as [s' H3].
    { assert (slot s2 q2 = Some o2) as S2'.
      { rewrite A5. destruct (slot_eqb_spec q2 q1); [congruence|exact S2]. }
      unfold slot in S2'. destruct (s_nodes s2 (fst q2)) as [nd|] eqn:E; [|discriminate].
      assert (length (n_edges nd) = rank (n_t nd)) as Hr.
      { specialize (A1 (fst q2)). rewrite E in A1. destruct (s_nodes s1 (fst q2)) as [nd0|] eqn:E0; [|contradiction].
        destruct A1 as (-> & _ & ->). apply (wf_rank W1 E0). }
      unfold add_edge, bind, get_node. rewrite E. unfold guard.
      assert (snd q2 < rank (n_t nd)) as Hlt by (rewrite <- Hr; apply nth_error_Some; congruence).
      rewrite (proj2 (Nat.ltb_lt _ _) Hlt). cbn. rewrite S2', A2. unfold s1. cbn [s_edges]. rewrite upd_other by lia. rewrite E2. cbn. eexists. reflexivity. }
    exists s'. unfold put_joined, bind, alloc_edge. fold s1. rewrite H2, H3. split; [reflexivity|].
    apply add_edge_slot in H3. destruct H3 as (B1 & B2 & B3 & B4 & B5 & _). rewrite <- surjective_pairing in B5.
    assert (same_nodes s s') as SN by exact (same_nodes_trans A1 B1).
    assert (forall g, g <> s_ne s -> s_edges s' g = s_edges s g) as HE.
    { intros g Hg. rewrite B2, A2. unfold s1. cbn [s_edges]. rewrite upd_other by exact Hg. reflexivity. }
    assert (s_edges s' (s_ne s) = Some (Edge (fst p1) (snd p1) (Some p2) false)) as HN.
    { rewrite B2, A2. unfold s1. cbn [s_edges]. apply upd_same. }
    assert (forall q, slot s' q = if slot_eqb q p1 || slot_eqb q p2 then Some (s_ne s) else slot s q) as HS.
    { intros q. rewrite B5, A5. change (slot s1 q) with (slot s q).
      destruct Hq as [Hq|Hq]; injection Hq as -> ->; destruct (slot_eqb q p1), (slot_eqb q p2); reflexivity. }
    destruct O1 as (r1' & T1 & F1), O2 as (r2' & T2 & F2).
    assert (r1' <> r2') as Hr12.
    { intros ->. rewrite F1 in F2. injection F2 as F3 F4. apply Hne. rewrite (surjective_pairing p1), (surjective_pairing p2). congruence. }
    assert (connect_post s s' r1' r2' (s_ne s) p1 p2) as C.
    { split; auto; [rewrite B4, A4; reflexivity|rewrite B3, A3; reflexivity]. }
    split; auto.
    - apply (connect_wf W C).
    - rewrite B3, A3. reflexivity.
    - rewrite B4, A4. reflexivity.
    - intros q. rewrite HS. cbn [existsb]. rewrite orb_false_r. reflexivity.
    - eexists. split; [exact HN|]. unfold ends. cbn. rewrite <- surjective_pairing. reflexivity.
  Qed.
End PutOk.

Section Inv.
  Context {R : cjr}.
  Notation st := (@st R).
  Notation node := (@node R).
  Implicit Types (s : st) (e f : eid) (p q : nid * nat).

  (** nothing that existed in s has changed in s' *)
  Definition extends s s' : Prop :=
    (forall m, m < s_nn s -> s_nodes s' m = s_nodes s m) /\ (forall e, e < s_ne s -> s_edges s' e = s_edges s e) /\
    s_nn s <= s_nn s' /\ s_ne s <= s_ne s'.
  Lemma extends_refl s : extends s s.
  Proof. repeat split; auto. Qed.
  Lemma extends_trans s s1 s2 : extends s s1 -> extends s1 s2 -> extends s s2.
  Proof.
    intros (A1 & A2 & A3 & A4) (B1 & B2 & B3 & B4). repeat split; try lia; intros x Hx.
    - rewrite B1 by lia. apply A1, Hx.
    - rewrite B2 by lia. apply A2, Hx.
  Qed.
  Lemma extends_slot s s' p : extends s s' -> fst p < s_nn s -> slot s' p = slot s p.
  Proof. intros (A & _) H. unfold slot. rewrite A by exact H. reflexivity. Qed.

  Definition cpt (conj : bool) (t : tensor R) : tensor R := if conj then conj_t t else t.
  Lemma shape_cpt c t : shape (cpt c t) = shape t.
  Proof. destruct c; reflexivity. Qed.

  Variable s0 : st.
  Hypothesis W0 : wf s0.
  Variable D : nid -> option nid.
  Hypothesis D_inj : forall n m N, D n = Some N -> D m = Some N -> n = m.
  Hypothesis D_new : forall n N, D n = Some N -> s_nn s0 <= N.
  Variable conj : bool.

  Definition imgs (ed : edge) : list (nid * nat) :=
    flat_map (fun p => match D (fst p) with Some N => [(N, snd p)] | None => [] end) (ends ed).

  Record cinv (done : eid -> edge -> bool) s : Prop := {
    ci_wf : wf s;
    ci_ext : extends s0 s;
    ci_slot : forall n N k e ed, D n = Some N -> slot s0 (n, k) = Some e -> s_edges s0 e = Some ed ->
      exists e' ed', s_ne s0 <= e' /\ slot s (N, k) = Some e' /\ s_edges s e' = Some ed' /\
        ends ed' = if done e ed then imgs ed else [(N, k)];
    ci_nodes : forall n N nd, D n = Some N -> s_nodes s0 n = Some nd ->
      exists es', s_nodes s N = Some (Node (cpt conj (n_t nd)) es' (n_names nd)) /\ length es' = length (n_edges nd)
  }.

  Lemma cinv_ext done done' s : (forall e ed, s_edges s0 e = Some ed -> done e ed = done' e ed) -> cinv done s -> cinv done' s.
  Proof.
    intros H [C1 C2 C3 C4]. split; auto. intros n N k e ed H1 H2 H3. destruct (C3 n N k e ed H1 H2 H3) as (e' & ed' & Q).
    exists e', ed'. rewrite <- H by exact H3. exact Q.
  Qed.

  Lemma In_imgs n N k ed : D n = Some N -> In (N, k) (imgs ed) <-> In (n, k) (ends ed).
  Proof.
    intros H. unfold imgs. rewrite in_flat_map. split.
    - intros ([m j] & Hm & Hin). cbn [fst snd] in Hin. destruct (D m) as [M'|] eqn:E; [|destruct Hin].
      destruct Hin as [Hin|[]]. injection Hin as -> ->. rewrite (D_inj H E). exact Hm.
    - intros Hin. exists (n, k). split; [exact Hin|]. cbn [fst snd]. rewrite H. left. reflexivity.
  Qed.
  Lemma In_imgs_inv M' k ed : In (M', k) (imgs ed) -> exists m, D m = Some M' /\ In (m, k) (ends ed).
  Proof.
    unfold imgs. rewrite in_flat_map. intros ([m j] & Hm & Hin). cbn [fst snd] in Hin. destruct (D m) as [M''|] eqn:E; [|destruct Hin].
    destruct Hin as [Hin|[]]. injection Hin as -> ->. eauto.
  Qed.

  Lemma existsb_slot q ps : existsb (slot_eqb q) ps = true <-> In q ps.
  Proof.
    rewrite existsb_exists. split.
    - intros (x & Hx & E). destruct (slot_eqb_spec q x) as [->|]; [exact Hx|discriminate].
    - intros H. exists q. split; [exact H|]. destruct (slot_eqb_spec q q); [reflexivity|congruence].
  Qed.

  Lemma put_extends s s' f ps : extends s0 s -> (forall q, In q ps -> s_nn s0 <= fst q) -> put_post s s' f ps -> extends s0 s'.
  Proof.
    intros (A1 & A2 & A3 & A4) Hps C. split; [|split; [|split]].
    - intros m Hm. rewrite <- A1 by exact Hm. apply nodes_eq; [apply (pp_same C)|]. intros k. rewrite (pp_slot C).
      destruct (existsb (slot_eqb (m, k)) ps) eqn:E; [|reflexivity]. apply existsb_slot in E. apply Hps in E. cbn in E. lia.
    - intros e He. rewrite (pp_edges C) by (rewrite (pp_f C); lia). apply A2, He.
    - rewrite (pp_nn C). exact A3.
    - rewrite (pp_ne C). lia.
  Qed.

  Lemma cinv_step done s s' n0 k0 N0 e ed f :
    cinv done s -> D n0 = Some N0 -> slot s0 (n0, k0) = Some e -> s_edges s0 e = Some ed ->
    put_post s s' f (imgs ed) ->
    cinv (fun x xd => Nat.eqb x e || done x xd) s' /\
    (forall n N k, D n = Some N -> slot s0 (n, k) = Some e -> slot s' (N, k) = Some f).
  Proof.
    intros C H0 Hs He P.
    assert (forall n N k, D n = Some N -> (In (N, k) (imgs ed) <-> slot s0 (n, k) = Some e)) as Himg.
    { intros n N k Hn. rewrite (In_imgs k ed Hn). split.
      - intros Hin. apply (ends_live W0 Hs He Hin).
      - intros Hk. apply (live_in_ends W0 Hk He). }
    destruct (ci_ext C) as (X1 & X2 & X3 & X4).
    split; [split|].
    - apply (pp_wf P).
    - apply (@put_extends s s' f (imgs ed)); auto; [apply (ci_ext C)|]. intros [M' k] Hq. apply In_imgs_inv in Hq.
      destruct Hq as (m & Hm & _). apply (D_new Hm).
    - intros n N k x xd Hn Hk Hx. rewrite (pp_slot P). destruct (existsb (slot_eqb (N, k)) (imgs ed)) eqn:E.
      + apply existsb_slot in E. apply (Himg n N k Hn) in E. rewrite Hk in E. injection E as ->. rewrite He in Hx. injection Hx as <-.
        destruct (pp_edge P) as (ed' & E1 & E2). exists f, ed'. rewrite Nat.eqb_refl. cbn [orb]. rewrite (pp_f P) in *. repeat split; auto.
      + assert (x <> e) as Hne.
        { intros ->. apply (Himg n N k Hn) in Hk. apply existsb_slot in Hk. congruence. }
        destruct (ci_slot C Hn Hk Hx) as (e' & ed' & Q1 & Q2 & Q3 & Q4). exists e', ed'.
        destruct (Nat.eqb_spec x e); [contradiction|]. cbn [orb]. repeat split; auto.
        rewrite (pp_edges P); [exact Q3|]. rewrite (pp_f P). destruct (slot_lt (ci_wf C) Q2). lia.
    - intros n N nd Hn Hnd. destruct (ci_nodes C Hn Hnd) as (es' & Q1 & Q2). pose proof (pp_same P N) as Q. rewrite Q1 in Q.
      destruct (s_nodes s' N) as [[t es nm]|] eqn:E; [|contradiction]. cbn in Q. destruct Q as (-> & -> & Q). exists es. split; [reflexivity|lia].
    - intros n N k Hn Hk. rewrite (pp_slot P). apply (Himg n N k Hn) in Hk. apply existsb_slot in Hk. rewrite Hk. reflexivity.
  Qed.

  (** a slot whose edge has not been handled yet carries a dangling edge *)
  Lemma cinv_open done s e ed n0 k0 : cinv done s -> slot s0 (n0, k0) = Some e -> s_edges s0 e = Some ed -> done e ed = false ->
    forall q, In q (imgs ed) -> open_at s q.
  Proof.
    intros C Hs He Hd [M' k] Hq. apply In_imgs_inv in Hq. destruct Hq as (m & Hm & Hin).
    pose proof (ends_live W0 Hs He Hin) as Hk. destruct (ci_slot C Hm Hk He) as (e' & ed' & Q1 & Q2 & Q3 & Q4).
    rewrite Hd in Q4. exists e'. split; [exact Q2|]. cbn [fst snd].
    destruct (wf_slot (ci_wf C) Q2) as (ed'' & T1 & T2 & _). rewrite Q3 in T1. injection T1 as <-.
    destruct ed' as [x a [y|] ds]; unfold ends in Q4; cbn in Q4; [discriminate|]. injection Q4 as -> ->. cbn in T2. subst ds. exact Q3.
  Qed.

  Lemma cinv_dim done s n N k : cinv done s -> D n = Some N -> slot s0 (n, k) <> None -> dimat s (N, k) = dimat s0 (n, k).
  Proof.
    intros C Hn Hk. unfold slot in Hk. unfold dimat. cbn [fst snd] in *. destruct (s_nodes s0 n) as [nd|] eqn:E; [|congruence].
    destruct (ci_nodes C Hn E) as (es' & -> & _). cbn [n_t]. rewrite shape_cpt. reflexivity.
  Qed.
  Lemma cinv_dims done s e ed n0 k0 p1 p2 : cinv done s -> slot s0 (n0, k0) = Some e -> s_edges s0 e = Some ed ->
    imgs ed = [p1; p2] -> p1 <> p2 /\ dimat s p1 = dimat s p2.
  Proof.
    intros C Hs He Hi.
    destruct p1 as [M1 k1], p2 as [M2 k2].
    destruct (@In_imgs_inv M1 k1 ed) as (m1 & D1 & I1); [rewrite Hi; left; reflexivity|].
    destruct (@In_imgs_inv M2 k2 ed) as (m2 & D2 & I2); [rewrite Hi; right; left; reflexivity|].
    pose proof (ends_live W0 Hs He I1) as L1. pose proof (ends_live W0 Hs He I2) as L2.
    split.
    - intros E. injection E as -> ->. assert (m1 = m2) as -> by (apply (D_inj D1 D2)).
      destruct (wf_slot W0 Hs) as (ed' & T1 & _ & _ & Hnd & _). rewrite He in T1. injection T1 as <-.
      unfold imgs in Hi. destruct ed as [x a [[y b]|] ds]; unfold ends in *; cbn [e_n1 e_a1 e_2 flat_map fst snd app] in *.
      + destruct (D x) as [X|] eqn:DX, (D y) as [Y|] eqn:DY; cbn in Hi; try discriminate. injection Hi as -> -> -> ->.
        assert (x = y) as -> by (apply (D_inj DX DY)). apply NoDup_cons_iff in Hnd. destruct Hnd as [Hnd _]. apply Hnd. left. reflexivity.
      + destruct (D x); cbn in Hi; discriminate.
    - rewrite (@cinv_dim done s m1 M1 k1 C D1) by congruence. rewrite (@cinv_dim done s m2 M2 k2 C D2) by congruence.
      rewrite (edim_dimat W0 L1), (edim_dimat W0 L2). reflexivity.
  Qed.
End Inv.

Section Phase1.
  Context {R : cjr}.
  Notation st := (@st R).
  Notation node := (@node R).
  Implicit Types (s : st) (e f : eid) (p q : nid * nat).

  (** axis names are usable: add_axis_names accepts them *)
  Definition named s (n : nid) : Prop := forall nd, s_nodes s n = Some nd -> NoDup (n_names nd) /\ length (n_names nd) = rank (n_t nd).

  Lemma nodupb_spec l : nodupb l = true <-> NoDup l.
  Proof.
    induction l as [|x r IH]; cbn [nodupb]; [split; [constructor|reflexivity]|].
    rewrite andb_true_iff, NoDup_cons_iff, IH, negb_true_iff. split; intros [A B]; split; auto.
    - intros K. apply mem_In in K. congruence.
    - destruct (mem x r) eqn:E; [apply mem_In in E; contradiction|reflexivity].
  Qed.

  Definition is_nodeb s (n : nid) : bool := match s_nodes s n with Some _ => true | None => false end.
  Lemma is_nodeb_spec s n : is_nodeb s n = true -> is_node s n.
  Proof. unfold is_nodeb, is_node. destruct (s_nodes s n); [discriminate|]. intros H. discriminate. Qed.
  Definition namedb s (n : nid) : bool :=
    match s_nodes s n with Some nd => nodupb (n_names nd) && Nat.eqb (length (n_names nd)) (rank (n_t nd)) | None => true end.
  Lemma namedb_spec s n : namedb s n = true -> named s n.
  Proof.
    unfold namedb, named. intros H nd E. rewrite E in H. apply andb_true_iff in H. destruct H as [A B].
    apply nodupb_spec in A. apply Nat.eqb_eq in B. auto.
  Qed.

  Lemma new_node_ok s t l : NoDup l -> length l = rank t -> exists s' n, new_node t (Some l) s = (s', Some n).
  Proof.
    intros H1 H2. unfold new_node, bind, guard. rewrite (proj2 (nodupb_spec l) H1), H2, Nat.eqb_refl. cbn.
    destruct (alloc_edges_ok (s_nn s) 0 (rank t) s) as [s' ->]. unfold alloc_node. eauto.
  Qed.

  (** N is a copy of n made from state s, before the edges to other nodes are connected *)
  Definition copied (conj : bool) s s' (n N : nid) : Prop :=
    exists nd es', s_nodes s n = Some nd /\ s_nodes s' N = Some (Node (cpt conj (n_t nd)) es' (n_names nd)) /\
      length es' = length (n_edges nd) /\
      forall k e ed, slot s (n, k) = Some e -> s_edges s e = Some ed -> exists e' ed',
        s_ne s <= e' /\ slot s' (N, k) = Some e' /\ s_edges s' e' = Some ed' /\
        ends ed' = if is_trace_edge ed then map (fun p => (N, snd p)) (ends ed) else [(N, k)].

  Lemma copy_edges_ok conj s0 n N nd : wf s0 -> s_nodes s0 n = Some nd -> s_nn s0 <= N ->
    forall es pre seen s, n_edges nd = pre ++ es -> (forall e, In e seen <-> In e pre) ->
    cinv s0 (fun m => if Nat.eqb m n then Some N else None) conj (fun e _ => mem e seen) s ->
    exists s' seen', copy_edges N (length pre) seen es s = (s', Some tt) /\ (forall e, In e seen' <-> In e (n_edges nd)) /\ s_nn s' = s_nn s /\
      cinv s0 (fun m => if Nat.eqb m n then Some N else None) conj (fun e _ => mem e seen') s'.
  Proof.
    intros W0 Hn HN. set (D := fun m => if Nat.eqb m n then Some N else None).
    assert (forall a b M', D a = Some M' -> D b = Some M' -> a = b) as D_inj.
    { unfold D. intros a b M'. destruct (Nat.eqb_spec a n), (Nat.eqb_spec b n); congruence. }
    assert (forall a M', D a = Some M' -> s_nn s0 <= M') as D_new.
    { unfold D. intros a M'. destruct (Nat.eqb_spec a n); congruence. }
    assert (D n = Some N) as Dn by (unfold D; rewrite Nat.eqb_refl; reflexivity).
    induction es as [|e r IH]; intros pre seen s Hes Hseen C; cbn [copy_edges].
    { exists s, seen. split; [reflexivity|]. split; [|split; [reflexivity|exact C]].
      intros e. rewrite Hseen, Hes, app_nil_r. reflexivity. }
    assert (slot s0 (n, length pre) = Some e) as Hs.
    { unfold slot. cbn [fst snd]. rewrite Hn, Hes, nth_error_app2, Nat.sub_diag by lia. reflexivity. }
    assert (S (length pre) = length (pre ++ [e])) as HL by (rewrite app_length; cbn; lia).
    assert (n_edges nd = (pre ++ [e]) ++ r) as Hes' by (rewrite <- app_assoc; exact Hes).
    destruct (mem e seen) eqn:Em.
    { rewrite HL. apply IH; auto. intros x. rewrite Hseen, in_app_iff. cbn. apply mem_In in Em. apply Hseen in Em.
      split; [auto|]. intros [|[<-|[]]]; auto. }
    assert (forall x, In x (e :: seen) <-> In x (pre ++ [e])) as Hseen'.
    { intros x. rewrite in_app_iff. cbn. rewrite Hseen. tauto. }
    destruct (wf_slot W0 Hs) as (ed & He & Hdis & Hin & Hnd & _).
    destruct (slot_lt W0 Hs) as [_ Hlt].
    assert (get_edge e s = (s, Some ed)) as Hge.
    { unfold get_edge. destruct (ci_ext C) as (_ & X & _). rewrite X, He, Hdis by exact Hlt. reflexivity. }
    unfold bind at 1. rewrite Hge.
    (* continuing after the edge has been put in place *)
    assert (forall s' f, put_post s s' f (imgs D ed) ->
       exists s'' seen', copy_edges N (S (length pre)) (e :: seen) r s' = (s'', Some tt) /\ (forall e, In e seen' <-> In e (n_edges nd)) /\
         s_nn s'' = s_nn s /\ cinv s0 D conj (fun e _ => mem e seen') s'') as Go.
    { intros s' f P. destruct (@cinv_step _ s0 W0 D D_inj D_new conj _ _ _ _ _ _ _ _ _ C Dn Hs He P) as [C' _].
      destruct (IH (pre ++ [e]) (e :: seen) s' Hes' Hseen') as (s'' & seen' & G1 & G2 & G3 & G4).
      { eapply cinv_ext; [|exact C']. intros x xd _. unfold mem. cbn [existsb]. rewrite (Nat.eqb_sym x e). reflexivity. }
      exists s'', seen'. rewrite HL. rewrite G3, (pp_nn P). auto. }
    assert (forall q, In q (imgs D ed) -> open_at s q) as HO by (apply (@cinv_open _ s0 W0 D conj _ _ _ _ _ _ C Hs He Em)).
    assert (forall p1 p2, imgs D ed = [p1; p2] -> p1 <> p2 /\ dimat s p1 = dimat s p2) as HDim.
    { intros p1 p2. apply (@cinv_dims _ s0 W0 D D_inj conj _ _ _ _ _ _ _ _ C Hs He). }
    assert (imgs D ed = [(N, length pre)] -> exists s'' seen',
       bind (put_open (N, length pre)) (fun _ => copy_edges N (S (length pre)) (e :: seen) r) s = (s'', Some tt) /\
       (forall e, In e seen' <-> In e (n_edges nd)) /\ s_nn s'' = s_nn s /\ cinv s0 D conj (fun e _ => mem e seen') s'') as Open.
    { intros Hi. destruct (@put_open_ok _ s (N, length pre) (ci_wf C)) as (s' & H1 & P).
      { apply HO. rewrite Hi. left. reflexivity. }
      rewrite <- Hi in P. destruct (Go _ _ P) as (s'' & seen' & G). exists s'', seen'. unfold bind. rewrite H1. exact G. }
    unfold imgs in *. destruct ed as [x a [[y b]|] ds]; unfold ends in *; cbn [e_n1 e_a1 e_2 flat_map fst snd app] in *.
    - destruct (Nat.eqb_spec x y) as [<-|Hxy].
      + assert (x = n) as -> by (destruct Hin as [Hin|[Hin|[]]]; congruence).
        rewrite Dn in *. cbn [app] in *.
        destruct (HDim _ _ eq_refl) as [Hne Hdim].
        destruct (@put_joined_ok _ s (N, a) (N, b) (N, a) (N, b) (ci_wf C)) as (s' & H1 & P); auto.
        { apply HO. left. reflexivity. } { apply HO. right. left. reflexivity. }
        destruct (Go _ _ P) as (s'' & seen' & G). exists s'', seen'. unfold bind. rewrite H1. exact G.
      + apply Open. unfold D. destruct Hin as [Hin|[Hin|[]]]; injection Hin as -> ->.
        * rewrite Nat.eqb_refl. destruct (Nat.eqb_spec y n); [congruence|]. reflexivity.
        * rewrite Nat.eqb_refl. destruct (Nat.eqb_spec x n); [congruence|]. reflexivity.
    - apply Open. destruct Hin as [Hin|[]]. injection Hin as -> ->. rewrite Dn. reflexivity.
  Qed.

  Lemma node_copy_ok conj s n : wf s -> is_node s n -> named s n ->
    exists s' N, node_copy n conj s = (s', Some N) /\ N = s_nn s /\ s_nn s' = S (s_nn s) /\ wf s' /\ extends s s' /\ copied conj s s' n N.
  Proof.
    intros W Hn Hnm. destruct (is_node_Some Hn) as [nd Hnd]. destruct (Hnm nd Hnd) as [N1 N2].
    unfold node_copy. unfold bind at 1, get_node. rewrite Hnd.
    destruct (@new_node_ok s (cpt conj (n_t nd)) (n_names nd) N1) as (s1 & N & H1).
    { unfold rank. rewrite shape_cpt. exact N2. }
    unfold bind at 1. fold (cpt conj (n_t nd)). rewrite H1.
    destruct (new_node_wf W H1) as (W1 & LN & HN & Hnone & Hnn & (nms & _ & _ & Hnms & HnN) & Hoth & Hedg & Hne).
    specialize (Hnms _ eq_refl). subst nms.
    assert (extends s s1) as X1.
    { split; [|split; [|split]]; try lia.
      - intros m Hm. apply Hoth. lia.
      - exact Hedg. }
    set (D := fun m => if Nat.eqb m n then Some N else None).
    assert (cinv s D conj (fun e _ => mem e []) s1) as C.
    { split; auto.
      - unfold D. intros m M' k e ed Hm Hk He. destruct (Nat.eqb_spec m n) as [->|]; [|discriminate]. injection Hm as <-.
        assert (k < rank (n_t nd)) as Hlt.
        { rewrite <- (wf_rank W Hnd). unfold slot in Hk. cbn in Hk. rewrite Hnd in Hk. apply nth_error_Some. congruence. }
        assert (slot s1 (N, k) = Some (s_ne s + k)) as Hsk.
        { unfold slot. cbn [fst snd]. rewrite HnN. cbn [n_edges].
          rewrite (nth_error_nth' _ 0) by (rewrite seq_length; unfold rank; rewrite shape_cpt; exact Hlt).
          rewrite seq_nth by (unfold rank; rewrite shape_cpt; exact Hlt). reflexivity. }
        exists (s_ne s + k). apply new_node_inv in H1. destruct H1 as (? & _ & _ & _ & _ & _ & _ & _ & HE).
        rewrite HE. replace (Nat.leb (s_ne s) (s_ne s + k) && _) with true
          by (symmetry; apply andb_true_iff; rewrite Nat.leb_le, Nat.ltb_lt; unfold rank; rewrite shape_cpt; unfold rank in Hlt; lia).
        eexists. split; [lia|]. split; [exact Hsk|]. split; [reflexivity|].
        unfold ends. cbn. do 2 f_equal. lia.
      - unfold D. intros m M' md Hm Hmd. destruct (Nat.eqb_spec m n) as [->|]; [|discriminate]. injection Hm as <-.
        rewrite Hnd in Hmd. injection Hmd as <-. eexists. split; [exact HnN|]. rewrite seq_length. unfold rank. rewrite shape_cpt. symmetry. apply (wf_rank W Hnd). }
    destruct (@copy_edges_ok conj s n N nd W Hnd) with (es := n_edges nd) (pre := @nil nat) (seen := @nil nat) (s := s1) as (s' & seen' & H2 & Hseen & Hnn' & C'); auto.
    { lia. } { reflexivity. }
    unfold bind. cbn [length] in H2. rewrite H2. unfold ret.
    exists s', N. split; [reflexivity|]. split; [exact HN|]. split; [lia|]. split; [apply (ci_wf C')|]. split; [apply (ci_ext C')|].
    assert (D n = Some N) as Dn by (unfold D; rewrite Nat.eqb_refl; reflexivity).
    destruct (ci_nodes C' Dn Hnd) as (es' & Q1 & Q2). exists nd, es'. repeat split; auto.
    intros k e ed Hk He. destruct (ci_slot C' Dn Hk He) as (e' & ed' & T1 & T2 & T3 & T4). exists e', ed'. repeat split; auto.
    assert (mem e seen' = true) as Hm.
    { apply mem_In, Hseen. apply (on_In e Hnd). exists k. exact Hk. }
    rewrite Hm in T4. rewrite T4. pose proof (live_in_ends W Hk He) as Hin.
    destruct (wf_slot W Hk) as (ed0 & K & _ & _ & Hndp & _). rewrite He in K. injection K as <-.
    unfold imgs, is_trace_edge. destruct ed as [x a [[y b]|] ds]; unfold ends in *; cbn [e_n1 e_a1 e_2 flat_map map fst snd app] in *.
    - destruct (Nat.eqb_spec x y) as [<-|Hxy].
      + assert (x = n) as -> by (destruct Hin as [Hin|[Hin|[]]]; congruence). fold D. rewrite Nat.eqb_refl. reflexivity.
      + destruct Hin as [Hin|[Hin|[]]]; injection Hin as -> ->.
        * rewrite Nat.eqb_refl. destruct (Nat.eqb_spec y n); [congruence|]. reflexivity.
        * rewrite Nat.eqb_refl. destruct (Nat.eqb_spec x n); [congruence|]. reflexivity.
    - destruct Hin as [Hin|[]]. injection Hin as -> ->. rewrite Nat.eqb_refl. reflexivity.
  Qed.
End Phase1.

Section Phase2.
  Context {R : cjr}.
  Notation st := (@st R).
  Notation node := (@node R).
  Implicit Types (s : st) (e f : eid) (p q : nid * nat).
  Variable iter : list nat -> list nat.
  Hypothesis iter_perm : forall l, Permutation (iter l) l.

  Lemma copied_before conj s s1 s' n N : wf s -> extends s s1 -> is_node s n -> copied conj s1 s' n N -> copied conj s s' n N.
  Proof.
    intros W X Hn (nd & es' & A1 & A2 & A3 & A4). destruct (is_node_Some Hn) as [nd0 Hnd].
    assert (n < s_nn s) as Hlt by apply (wf_nn W Hnd).
    pose proof X as (X1 & X2 & X3 & X4). rewrite X1 in A1 by exact Hlt.
    exists nd, es'. repeat split; auto. intros k e ed Hk He. destruct (slot_lt W Hk) as [_ Hl].
    destruct (A4 k e ed) as (e' & ed' & Q1 & Q2 & Q3 & Q4).
    - rewrite (@extends_slot _ s s1) by (cbn; auto). exact Hk.
    - rewrite X2 by exact Hl. exact He.
    - exists e', ed'. repeat split; auto. lia.
  Qed.
  Lemma copied_after conj s s1 s' n N : wf s1 -> extends s1 s' -> copied conj s s1 n N -> copied conj s s' n N.
  Proof.
    intros W X (nd & es' & A1 & A2 & A3 & A4). pose proof (wf_nn W A2) as Hlt. pose proof X as (X1 & X2 & _).
    exists nd, es'. repeat split; auto; [rewrite X1 by exact Hlt; exact A2|].
    intros k e ed Hk He. destruct (A4 k e ed Hk He) as (e' & ed' & Q1 & Q2 & Q3 & Q4). exists e', ed'. repeat split; auto.
    - rewrite (@extends_slot _ s1 s') by (cbn; auto). exact Q2.
    - rewrite X2; [exact Q3|]. apply (slot_lt W Q2).
  Qed.

  Lemma node_copies_ok conj ns : forall s, wf s -> (forall n, In n ns -> is_node s n /\ named s n) ->
    exists s', mmap (fun n => node_copy n conj) ns s = (s', Some (seq (s_nn s) (length ns))) /\
      s_nn s' = s_nn s + length ns /\ wf s' /\ extends s s' /\
      forall n N, In (n, N) (combine ns (seq (s_nn s) (length ns))) -> copied conj s s' n N.
  Proof.
    induction ns as [|n r IH]; intros s W Hns; cbn [mmap length seq].
    { exists s. split; [reflexivity|]. split; [lia|]. split; [exact W|]. split; [apply extends_refl|]. intros ? ? []. }
    destruct (Hns n (or_introl eq_refl)) as [Hn Hnm].
    destruct (node_copy_ok conj W Hn Hnm) as (s1 & N & H1 & -> & Hnn & W1 & X1 & C1).
    pose proof X1 as (Y1 & _).
    destruct (IH s1 W1) as (s' & H2 & Hnn' & W' & X' & C').
    { intros m Hm. destruct (Hns m (or_intror Hm)) as [Q1 Q2]. destruct (is_node_Some Q1) as [md Hmd].
      pose proof (wf_nn W Hmd) as Hlt. unfold is_node, named. rewrite Y1 by exact Hlt. auto. }
    exists s'. unfold bind. rewrite H1, H2. unfold ret. rewrite Hnn. split; [reflexivity|]. split; [lia|].
    split; [exact W'|]. split; [apply (extends_trans X1 X')|]. cbn [combine].
    intros m M' [Hm|Hm].
    - injection Hm as <- <-. apply (copied_after W1 X' C1).
    - rewrite <- Hnn in Hm. apply (@copied_before conj s s1 s'); auto.
      apply in_combine_l in Hm. apply (Hns m (or_intror Hm)).
  Qed.

  (** *** the loop over the edges *)
  Section Loop.
    Variable s0 : st.
    Hypothesis W0 : wf s0.
    Variable d : list (nid * nid).
    Hypothesis D_inj : forall n m N, dget d n = Some N -> dget d m = Some N -> n = m.
    Hypothesis D_new : forall n N, dget d n = Some N -> s_nn s0 <= N.
    Variable conj : bool.
    Notation cinv := (cinv s0 (dget d) conj).

    Lemma cinv_alloc done s x : cinv done s ->
      cinv done (St (s_nodes s) (upd Nat.eq_dec (s_edges s) (s_ne s) (Some x)) (s_nn s) (S (s_ne s))).
    Proof using.
      intros [C1 C2 C3 C4]. split.
      - apply wfx_alloc, C1.
      - destruct C2 as (X1 & X2 & X3 & X4). split; [exact X1|]. split; [|cbn; split; lia].
        intros e He. cbn [s_edges]. rewrite upd_other by lia. apply X2, He.
      - intros n N k e ed H1 H2 H3. destruct (C3 n N k e ed H1 H2 H3) as (e' & ed' & Q1 & Q2 & Q3 & Q4).
        exists e', ed'. repeat split; auto. cbn [s_edges]. destruct (slot_lt C1 Q2). rewrite upd_other by lia. exact Q3.
      - exact C4.
    Qed.

    Definition done2 (seen : list eid) e (ed : edge) : bool := mem e seen || is_trace_edge ed.

    Lemma copy_edge_ok seen s n0 N0 k0 e : cinv (done2 seen) s -> dget d n0 = Some N0 -> slot s0 (n0, k0) = Some e -> ~ In e seen ->
      exists s' f, copy_edge d e s = (s', Some (e, f)) /\ s_nn s' = s_nn s /\ cinv (done2 (e :: seen)) s' /\
        (forall n N k x, dget d n = Some N -> slot s0 (n, k) = Some x -> x <> e -> slot s' (N, k) = slot s (N, k)) /\
        (forall ed, s_edges s0 e = Some ed -> is_trace_edge ed = false ->
           forall n N k, dget d n = Some N -> slot s0 (n, k) = Some e -> slot s' (N, k) = Some f).
    Proof using W0 D_inj D_new.
      intros C D0 Hs Hseen. destruct (wf_slot W0 Hs) as (ed & He & Hdis & Hin & Hnd & _).
      destruct (slot_lt W0 Hs) as [_ Hlt].
      assert (get_edge e s = (s, Some ed)) as Hge.
      { unfold get_edge. destruct (ci_ext C) as (_ & X & _). rewrite X, He, Hdis by exact Hlt. reflexivity. }
      assert (mem e seen = false) as Em by (destruct (mem e seen) eqn:Q; [apply mem_In in Q; contradiction|reflexivity]).
      destruct (is_trace_edge ed) eqn:Etr.
      - (* a trace edge: a record that is not installed *)
        unfold copy_edge. unfold bind at 1. rewrite Hge. unfold is_trace_edge in Etr. destruct ed as [x a [[y b]|] ds]; cbn [e_n1 e_a1 e_2] in *; [|discriminate].
        pose proof Etr as Etr'. apply Nat.eqb_eq in Etr'. subst y. assert (x = n0) as ->.
        { unfold ends in Hin. cbn in Hin. destruct Hin as [Hin|[Hin|[]]]; congruence. }
        rewrite D0, Nat.eqb_refl. unfold bind, alloc_edge, ret. do 2 eexists. split; [reflexivity|]. split; [reflexivity|].
        split; [|split].
        + eapply cinv_ext; [|apply cinv_alloc; exact C]. intros z zd Hzd. unfold done2.
          destruct (Nat.eq_dec z e) as [->|Hz].
          * rewrite He in Hzd. injection Hzd as <-. unfold is_trace_edge. cbn [e_2 e_n1]. rewrite Nat.eqb_refl, !orb_true_r. reflexivity.
          * unfold mem. cbn [existsb]. destruct (Nat.eqb_spec z e); [contradiction|]. reflexivity.
        + intros. reflexivity.
        + intros ed He'. rewrite He in He'. injection He' as <-. unfold is_trace_edge. cbn. rewrite Nat.eqb_refl. discriminate.
      - assert (done2 seen e ed = false) as Hd by (unfold done2; rewrite Em, Etr; reflexivity).
        assert (forall q, In q (imgs (dget d) ed) -> open_at s q) as HO by (apply (@cinv_open _ s0 W0 (dget d) conj _ _ _ _ _ _ C Hs He Hd)).
        assert (forall p1 p2, imgs (dget d) ed = [p1; p2] -> p1 <> p2 /\ dimat s p1 = dimat s p2) as HDim.
        { intros p1 p2. apply (@cinv_dims _ s0 W0 (dget d) D_inj conj _ _ _ _ _ _ _ _ C Hs He). }
        assert (forall s' f, put_post s s' f (imgs (dget d) ed) -> copy_edge d e s = (s', Some (e, f)) ->
          exists s' f, copy_edge d e s = (s', Some (e, f)) /\ s_nn s' = s_nn s /\ cinv (done2 (e :: seen)) s' /\
          (forall n N k x, dget d n = Some N -> slot s0 (n, k) = Some x -> x <> e -> slot s' (N, k) = slot s (N, k)) /\
          (forall ed, s_edges s0 e = Some ed -> is_trace_edge ed = false ->
             forall n N k, dget d n = Some N -> slot s0 (n, k) = Some e -> slot s' (N, k) = Some f)) as Go.
        { intros s' f P Hrun. exists s', f. split; [exact Hrun|]. split; [apply (pp_nn P)|].
          destruct (@cinv_step _ s0 W0 (dget d) D_inj D_new conj _ _ _ _ _ _ _ _ _ C D0 Hs He P) as [C' Hf]. split; [|split].
          - eapply cinv_ext; [|exact C']. intros z zd _. unfold done2, mem. cbn [existsb]. rewrite orb_assoc. reflexivity.
          - intros n N k x Hn Hk Hx. rewrite (pp_slot P). destruct (existsb (slot_eqb (N, k)) (imgs (dget d) ed)) eqn:E; [|reflexivity].
            apply existsb_slot in E. apply (In_imgs D_inj k ed Hn) in E. pose proof (ends_live W0 Hs He E). congruence.
          - intros _ _ _ n N k. apply Hf. }
        clear Hd Hnd.
        unfold is_trace_edge in Etr. unfold imgs in *. destruct ed as [x a [[y b]|] ds]; unfold ends in *; cbn [e_n1 e_a1 e_2 flat_map fst snd app] in *.
        + destruct (dget d y) as [Y|] eqn:Dy; destruct (dget d x) as [X|] eqn:Dx; cbn [app] in *.
          * destruct (HDim _ _ eq_refl) as [Hne Hdim].
            destruct (@put_joined_ok _ s (X, a) (Y, b) (Y, b) (X, a) (ci_wf C)) as (s' & H1 & P); auto.
            { apply HO. left. reflexivity. } { apply HO. right. left. reflexivity. }
            apply (Go _ _ P). unfold copy_edge. unfold bind at 1. rewrite Hge. cbn [e_n1 e_a1 e_2]. rewrite ?Dy, ?Dx, ?Etr. unfold bind. rewrite H1. reflexivity.
          * destruct (@put_open_ok _ s (Y, b) (ci_wf C)) as (s' & H1 & P); [apply HO; left; reflexivity|].
            apply (Go _ _ P). unfold copy_edge. unfold bind at 1. rewrite Hge. cbn [e_n1 e_a1 e_2]. rewrite ?Dy, ?Dx, ?Etr. unfold bind. rewrite H1. reflexivity.
          * destruct (@put_open_ok _ s (X, a) (ci_wf C)) as (s' & H1 & P); [apply HO; left; reflexivity|].
            apply (Go _ _ P). unfold copy_edge. unfold bind at 1. rewrite Hge. cbn [e_n1 e_a1 e_2]. rewrite ?Dy, ?Dx, ?Etr. unfold bind. rewrite H1. reflexivity.
          * exfalso. destruct Hin as [Hin|[Hin|[]]]; injection Hin as -> ->; congruence.
        + destruct (dget d x) as [X|] eqn:Dx; cbn [app] in *.
          * destruct (@put_open_ok _ s (X, a) (ci_wf C)) as (s' & H1 & P); [apply HO; left; reflexivity|].
            apply (Go _ _ P). unfold copy_edge. unfold bind at 1. rewrite Hge. cbn [e_n1 e_a1 e_2]. rewrite ?Dy, ?Dx, ?Etr. unfold bind. rewrite H1. reflexivity.
          * exfalso. destruct Hin as [Hin|[]]; injection Hin as -> ->; congruence.
    Qed.

    Lemma copy_loop_ok : forall es seen s, NoDup es -> cinv (done2 seen) s ->
      (forall e, In e es -> ~ In e seen /\ exists n N k, dget d n = Some N /\ slot s0 (n, k) = Some e) ->
      exists s' ee seen', mmap (copy_edge d) es s = (s', Some ee) /\ map fst ee = es /\ s_nn s' = s_nn s /\
        cinv (done2 seen') s' /\ (forall x, In x seen' <-> In x es \/ In x seen) /\
        (forall n N k x, dget d n = Some N -> slot s0 (n, k) = Some x -> ~ In x es -> slot s' (N, k) = slot s (N, k)) /\
        (forall e f ed, In (e, f) ee -> s_edges s0 e = Some ed -> is_trace_edge ed = false ->
           forall n N k, dget d n = Some N -> slot s0 (n, k) = Some e -> slot s' (N, k) = Some f).
    Proof using W0 D_inj D_new.
      induction es as [|e r IH]; intros seen s Hnd C Hes; cbn [mmap].
      { exists s, [], seen. split; [reflexivity|]. split; [reflexivity|]. split; [reflexivity|]. split; [exact C|].
        split; [intros x; cbn; tauto|]. split; [auto|]. intros ? ? ? []. }
      apply NoDup_cons_iff in Hnd. destruct Hnd as [He Hr].
      destruct (Hes e (or_introl eq_refl)) as (Hns & n0 & N0 & k0 & D0 & Hs).
      destruct (copy_edge_ok C D0 Hs Hns) as (s1 & f & H1 & Hnn & C1 & F1 & G1).
      destruct (IH (e :: seen) s1 Hr C1) as (s' & ee & seen' & H2 & Hfst & Hnn' & C' & Hseen & F2 & G2).
      { intros x Hx. destruct (Hes x (or_intror Hx)) as (Q1 & Q2). split; [|exact Q2]. intros [->|K]; contradiction. }
      exists s', ((e, f) :: ee), seen'. unfold bind. rewrite H1, H2. unfold ret. cbn [map fst]. rewrite Hfst.
      split; [reflexivity|]. split; [reflexivity|]. split; [lia|]. split; [exact C'|]. split; [|split].
      - intros x. rewrite Hseen. cbn. tauto.
      - intros n N k x Hn Hk Hx. rewrite (F2 n N k x Hn Hk) by (intros K; apply Hx; right; exact K).
        apply (F1 n N k x Hn Hk). intros ->. apply Hx. left. reflexivity.
      - intros x y xd [K|K] Hxd Htr n N k Hn Hk.
        + injection K as <- <-. rewrite (F2 n N k e Hn Hk He). apply (G1 xd Hxd Htr n N k Hn Hk).
        + apply (G2 x y xd K Hxd Htr n N k Hn Hk).
    Qed.
  End Loop.

  (** what [copy] has done.  [s] before, [s'] after; [d] and [ee] are the returned dictionaries. *)
  Record copy_spec (conj : bool) s s' (ns : list nid) (d : list (nid * nid)) (ee : list (eid * eid)) : Prop := {
    cs_wf : wf s';
    (** the original network is untouched *)
    cs_old : forall m, is_node s m -> s_nodes s' m = s_nodes s m;
    cs_olde : forall m e, on s m e -> s_edges s' e = s_edges s e;
    (** exactly the given nodes have copies; the copies are new, different nodes, and nothing else is created *)
    cs_dom : forall n, In n ns <-> exists N, dget d n = Some N;
    cs_new : forall n N, dget d n = Some N -> ~ is_node s N;
    cs_inj : forall n m N, dget d n = Some N -> dget d m = Some N -> n = m;
    cs_all : forall m, is_node s' m -> is_node s m \/ exists n, dget d n = Some m;
    (** each copy has the tensor (conjugated if asked) and the axis names of its original *)
    cs_node : forall n N nd, dget d n = Some N -> s_nodes s n = Some nd ->
      exists es', s_nodes s' N = Some (Node (if conj then conj_t (n_t nd) else n_t nd) es' (n_names nd)) /\ length es' = length (n_edges nd);
    (** two axes of copies share an edge exactly when the axes of the originals do *)
    cs_slot : forall n N m M k l, dget d n = Some N -> dget d m = Some M -> slot s (n, k) <> None -> slot s (m, l) <> None ->
      (slot s (n, k) = slot s (m, l) <-> slot s' (N, k) = slot s' (M, l));
    (** no edge of a copy is on an original node *)
    cs_sep : forall n N m e, dget d n = Some N -> on s' N e -> is_node s m -> ~ on s' m e;
    (** the edge dictionary has an entry for every edge of the given nodes; the entry of an edge that is not
        a trace edge is the edge sitting at the corresponding axes of the copies *)
    cs_edom : forall e, (exists f, dget ee e = Some f) <-> exists n, In n ns /\ on s n e;
    cs_edge : forall e f n N k, dget ee e = Some f -> (forall m, ~ between s m m e) -> dget d n = Some N ->
      slot s (n, k) = Some e -> slot s' (N, k) = Some f;
    (** the ends of the edge at a copied axis are the copies of the ends of the original, in the same order *)
    cs_ends : forall n N k e ed, dget d n = Some N -> slot s (n, k) = Some e -> s_edges s e = Some ed ->
      exists e' ed', slot s' (N, k) = Some e' /\ s_edges s' e' = Some ed' /\
        ends ed' = flat_map (fun p => match dget d (fst p) with Some M => [(M, snd p)] | None => [] end) (ends ed)
  }.

  Lemma trace_between s n e ed : wf s -> on s n e -> s_edges s e = Some ed -> is_trace_edge ed = true <-> exists m, between s m m e.
  Proof.
    intros W Ho He. destruct (kinds W Ho He) as [(K1 & _ & _ & _ & K2)|(m & a2 & K1 & K2 & _ & _ & _ & K3)]; unfold is_trace_edge; rewrite K1.
    - split; [discriminate|]. intros [m Hm]. destruct (K2 _ _ Hm).
    - rewrite Nat.eqb_eq. split.
      + intros <-. exists (e_n1 ed). exact K2.
      + intros [x Hx]. apply K3 in Hx. destruct Hx as [[-> ->]|[-> ->]]; reflexivity.
  Qed.

  Theorem copy_ok conj s ns : wf s -> NoDup ns -> (forall n, In n ns -> is_node s n /\ named s n) ->
    exists s' d ee, copy iter ns conj s = (s', Some (d, ee)) /\ copy_spec conj s s' ns d ee /\ map fst d = rev ns /\
      Forall2 (fun n N => dget d n = Some N) ns (seq (s_nn s) (length ns)).
  Proof.
    intros W Hnd Hns. unfold copy.
    destruct (node_copies_ok conj W Hns) as (s1 & H1 & Hnn1 & W1 & X1 & C1).
    set (Ns := seq (s_nn s) (length ns)) in *. set (d := rev (combine ns Ns)).
    assert (length Ns = length ns) as HlN by (unfold Ns; apply seq_length).
    assert (map fst d = rev ns) as Hfd.
    { unfold d. rewrite map_rev. f_equal. clearbody Ns. clear - HlN. revert Ns HlN. induction ns as [|x r IH]; intros [|y Ns] H; try discriminate; cbn; [reflexivity|].
      f_equal. apply IH. injection H as H. exact H. }
    assert (forall n N, dget d n = Some N <-> In (n, N) (combine ns Ns)) as Hd.
    { intros n N. split.
      - intros H. apply dget_In in H. unfold d in H. apply in_rev in H. exact H.
      - intros H. apply dget_NoDup; [rewrite Hfd; apply NoDup_rev, Hnd|]. unfold d. apply in_rev. rewrite rev_involutive. exact H. }
    assert (forall n N, dget d n = Some N -> exists i, nth_error ns i = Some n /\ N = s_nn s + i /\ i < length ns) as Hdi.
    { intros n N H. apply Hd in H. apply In_nth_error in H. destruct H as [i Hi]. exists i.
      assert (forall (A B : Type) (l : list A) (m : list B) i x y, nth_error (combine l m) i = Some (x, y) -> nth_error l i = Some x /\ nth_error m i = Some y) as Hc.
      { clear. intros A B. induction l as [|a l IH]; intros [|b m] [|i] x y H; cbn in *; try discriminate; [injection H as -> ->; auto|apply IH, H]. }
      apply Hc in Hi. destruct Hi as [A B]. assert (i < length ns) as Hlt by (apply nth_error_Some; congruence).
      split; [exact A|]. split; [|exact Hlt]. unfold Ns in B. rewrite (nth_error_nth' _ 0) in B by (rewrite seq_length; exact Hlt).
      rewrite seq_nth in B by exact Hlt. congruence. }
    assert (forall n m N, dget d n = Some N -> dget d m = Some N -> n = m) as D_inj.
    { intros n m N A B. apply Hdi in A, B. destruct A as (i & A & A' & _), B as (j & B & B' & _). replace j with i in B by lia. congruence. }
    assert (forall n N, dget d n = Some N -> s_nn s <= N) as D_new.
    { intros n N A. apply Hdi in A. destruct A as (i & _ & -> & _). lia. }
    assert (forall n, In n ns <-> exists N, dget d n = Some N) as Hdom.
    { intros n. rewrite in_rev, <- Hfd. split; [apply dget_fst|]. intros [N HN]. destruct (in_dec Nat.eq_dec n (map fst d)) as [|K]; [assumption|].
      apply dget_None in K. congruence. }
    assert (Forall2 (fun n N => dget d n = Some N) ns Ns) as HF2.
    { assert (forall n N, In (n, N) (combine ns Ns) -> dget d n = Some N) as Q by (intros; apply Hd; assumption).
      clearbody d. clearbody Ns. clear - Q HlN. revert Ns HlN Q. induction ns as [|x r IH]; intros [|y Ns] H Q; try discriminate; constructor.
      - apply Q. left. reflexivity.
      - apply IH; [injection H as H; exact H|]. intros. apply Q. right. assumption. }
    pose proof X1 as (Y1 & Y2 & Y3 & Y4).
    (* the state after all nodes have been copied *)
    assert (cinv s (dget d) conj (done2 []) s1) as C.
    { split; auto.
      - intros n N k e ed Hn Hk He. apply Hd in Hn. destruct (C1 n N Hn) as (nd & es' & _ & _ & _ & Q). apply Hd in Hn.
        destruct (Q k e ed Hk He) as (e' & ed' & Q1 & Q2 & Q3 & Q4). exists e', ed'. repeat split; auto.
        unfold done2. cbn [mem existsb orb]. rewrite Q4. destruct (is_trace_edge ed) eqn:Etr; [|reflexivity].
        unfold imgs. pose proof (live_in_ends W Hk He) as Hin. unfold is_trace_edge in Etr.
        destruct ed as [x a [[y b]|] ds]; unfold ends in *; cbn [e_n1 e_a1 e_2 map flat_map fst snd app] in *; [|discriminate].
        apply Nat.eqb_eq in Etr. subst y. assert (x = n) as -> by (destruct Hin as [Hin|[Hin|[]]]; congruence).
        rewrite Hn. reflexivity.
      - intros n N nd Hn Hnd'. apply Hd in Hn. destruct (C1 n N Hn) as (nd0 & es' & Q1 & Q2 & Q3 & _). rewrite Hnd' in Q1. injection Q1 as <-. eauto. }
    assert (forall n, In n ns -> is_node s1 n /\ n < s_nn s) as Hns1.
    { intros n Hn. destruct (Hns n Hn) as [Q _]. destruct (is_node_Some Q) as [nd Q']. pose proof (wf_nn W Q') as Hlt.
      split; [|exact Hlt]. unfold is_node. rewrite Y1 by exact Hlt. exact Q. }
    assert (forall n e, In n ns -> (on s1 n e <-> on s n e)) as Hon.
    { intros n e Hn. destruct (Hns1 n Hn) as [_ Hlt]. unfold on. split; intros (k & Hk); exists k.
      - rewrite (@extends_slot _ s s1) in Hk by (cbn; auto). exact Hk.
      - rewrite (@extends_slot _ s s1) by (cbn; auto). exact Hk. }
    destruct (@get_all_edges_spec _ iter iter_perm s1 ns) as (es & H2 & Hes & Hes').
    { intros n Hn. apply Hns1, Hn. }
    destruct (@copy_loop_ok s W d D_inj D_new conj es [] s1 Hes C) as (s' & ee & seen' & H3 & Hfe & Hnn' & C' & Hseen & _ & Hedge).
    { intros e He. split; [intros []|]. apply Hes' in He. destruct He as (n & Hn & He). apply (Hon n e Hn) in He. destruct He as (k & Hk).
      apply Hdom in Hn. destruct Hn as [N HN]. exists n, N, k. auto. }
    assert (forall n N k e ed, dget d n = Some N -> slot s (n, k) = Some e -> s_edges s e = Some ed -> exists e' ed',
      s_ne s <= e' /\ slot s' (N, k) = Some e' /\ s_edges s' e' = Some ed' /\ ends ed' = imgs (dget d) ed) as Hfin.
    { intros n N k e ed Hn Hk He. destruct (ci_slot C' Hn Hk He) as (e' & ed' & Q1 & Q2 & Q3 & Q4). exists e', ed'. repeat split; auto.
      rewrite Q4. replace (done2 seen' e ed) with true; [reflexivity|]. symmetry. unfold done2. apply orb_true_iff. left. apply mem_In, Hseen. left.
      apply Hes'. exists n. assert (In n ns) as Hin by (apply Hdom; eauto). split; [exact Hin|]. apply Hon; [exact Hin|]. exists k. exact Hk. }
    pose proof (ci_wf C') as W'. pose proof (ci_ext C') as X'. pose proof X' as (Z1 & Z2 & Z3 & Z4).
    assert (forall m e, is_node s m -> on s' m e -> e < s_ne s) as Holde.
    { intros m e Hm (k & Hk). destruct (is_node_Some Hm) as [md Hmd]. pose proof (wf_nn W Hmd) as Hlt.
      rewrite (@extends_slot _ s s') in Hk by (cbn; auto). apply (slot_lt W Hk). }
    exists s', d, ee. split; [|split; [|split; [exact Hfd|exact HF2]]].
    { unfold bind. rewrite H1. fold d. rewrite H2, H3. reflexivity. }
    split; auto.
    - intros m Hm. destruct (is_node_Some Hm) as [md Hmd]. apply Z1, (wf_nn W Hmd).
    - intros m e Hm. destruct Hm as (k & Hk). apply Z2, (slot_lt W Hk).
    - intros n N Hn K. destruct (is_node_Some K) as [nd Q]. pose proof (wf_nn W Q). pose proof (D_new n N Hn). lia.
    - intros m Hm. destruct (is_node_Some Hm) as [md Hmd]. pose proof (wf_nn W' Hmd) as Hlt. rewrite Hnn', Hnn1 in Hlt.
      destruct (Nat.lt_ge_cases m (s_nn s)) as [Q|Q].
      + left. unfold is_node in *. rewrite Z1 in Hm by exact Q. exact Hm.
      + right. destruct (nth_error ns (m - s_nn s)) as [n|] eqn:E; [|apply nth_error_None in E; lia].
        exists n. apply Hd. assert (nth_error Ns (m - s_nn s) = Some m) as E'.
        { unfold Ns. rewrite (nth_error_nth' _ 0) by (rewrite seq_length; lia). rewrite seq_nth by lia. f_equal. lia. }
        clearbody d. clearbody Ns. clear - E E'. revert Ns E E'. generalize (m - s_nn s). induction ns as [|x r IH]; intros [|i] [|y Ns] E E'; cbn in *; try discriminate.
        * left. congruence.
        * right. apply (IH i); assumption.
    - intros n N nd Hn Hnd'. apply (ci_nodes C' Hn Hnd').
    - intros n N m M k l Hn Hm Hk Hl.
      destruct (slot s (n, k)) as [e|] eqn:Ek; [|congruence]. destruct (slot s (m, l)) as [f|] eqn:El; [|congruence].
      destruct (wf_slot W Ek) as (ed & He & _). destruct (wf_slot W El) as (fd & Hf & _).
      destruct (Hfin n N k e ed Hn Ek He) as (e' & ed' & _ & Q2 & Q3 & Q4).
      destruct (Hfin m M l f fd Hm El Hf) as (f' & fd' & _ & T2 & T3 & T4).
      split.
      + intros E. injection E as <-. rewrite Q2. symmetry. apply (ends_live W' Q2 Q3). rewrite Q4. apply (In_imgs D_inj l ed Hm).
        apply (live_in_ends W El He).
      + intros E. rewrite Q2, T2 in E. injection E as <-. rewrite Q3 in T3. injection T3 as <-.
        assert (In (N, k) (imgs (dget d) fd)) as K.
        { rewrite <- T4, Q4. apply (In_imgs D_inj k ed Hn). apply (live_in_ends W Ek He). }
        apply (In_imgs D_inj k fd Hn) in K. pose proof (ends_live W El Hf K). congruence.
    - intros n N m e Hn (k & Hk) Hm Ho. pose proof (Holde m e Hm Ho) as Hlt.
      assert (exists e0, slot s (n, k) = Some e0) as [e0 He0].
      { assert (In n ns) as Hin by (apply Hdom; eauto). destruct (Hns n Hin) as [Hnn _]. destruct (is_node_Some Hnn) as [nd Hnd'].
        destruct (ci_nodes C' Hn Hnd') as (es' & Q1 & Q2). unfold slot in *. cbn [fst snd] in *. rewrite Q1 in Hk. rewrite Hnd'. cbn in Hk.
        destruct (nth_error (n_edges nd) k) eqn:E; [eauto|]. apply nth_error_None in E.
        assert (k < length es') by (apply nth_error_Some; congruence). lia. }
      destruct (wf_slot W He0) as (ed & He & _). destruct (Hfin n N k e0 ed Hn He0 He) as (e' & ed' & Q1 & Q2 & _). rewrite Hk in Q2. injection Q2 as <-. lia.
    - intros e. rewrite <- Hfe in Hes'. split.
      + intros [f Hf]. assert (In e (map fst ee)) as K.
        { apply dget_In in Hf. apply in_map_iff. exists (e, f). auto. }
        apply Hes' in K. destruct K as (n & Hn & Ho). exists n. split; [exact Hn|]. apply Hon; assumption.
      + intros (n & Hn & Ho). apply dget_fst. apply Hes'. exists n. split; [exact Hn|]. apply Hon; assumption.
    - intros e f n N k Hf Htr Hn Hk. destruct (wf_slot W Hk) as (ed & He & _). apply dget_In in Hf.
      apply (Hedge e f ed Hf He) with (n := n); auto. destruct (is_trace_edge ed) eqn:E; [|reflexivity].
      apply (trace_between W (ex_intro _ k Hk) He) in E. destruct E as [m Hm]. destruct (Htr m Hm).
    - intros n N k e ed Hn Hk He. destruct (Hfin n N k e ed Hn Hk He) as (e' & ed' & _ & Q2 & Q3 & Q4). exists e', ed'. repeat split; auto.
  Qed.

  (** the copy of an axis whose edge leads outside the copied nodes (or is dangling) is a loose end *)
  Theorem copy_outside conj s s' ns d ee n N k e : (forall m, In m ns -> is_node s m) -> copy_spec conj s s' ns d ee -> dget d n = Some N -> slot s (n, k) = Some e ->
    (forall m l, In m ns -> slot s (m, l) = Some e -> (m, l) = (n, k)) -> exists f, slot s' (N, k) = Some f /\ open_on s' N f.
  Proof.
    intros Hns C Hn Hk Hout.
    destruct (slot_node Hk) as (nd & Hnd & Hnk). destruct (cs_node C Hn Hnd) as (es' & Q1 & Q2).
    assert (exists f, slot s' (N, k) = Some f) as [f Hf].
    { unfold slot. cbn. rewrite Q1. cbn. destruct (nth_error es' k) eqn:E; [eauto|]. apply nth_error_None in E.
      assert (k < length (n_edges nd)) by (apply nth_error_Some; congruence). lia. }
    exists f. split; [exact Hf|]. exists k. split; [exact Hf|]. intros [M' l] Hq.
    assert (is_node s' M') as HM by (apply (@on_node _ s' M' f); exists l; exact Hq).
    destruct (cs_all C HM) as [Hold|[m Hm]].
    - exfalso. apply (cs_sep C Hn (ex_intro _ k Hf) Hold). exists l. exact Hq.
    - assert (In m ns) as Hin by (apply (cs_dom C); eauto).
      assert (slot s (m, l) <> None) as Hml.
      { destruct (s_nodes s m) as [md|] eqn:E.
        - destruct (cs_node C Hm E) as (es2 & T1 & T2). unfold slot in *. cbn in *. rewrite T1 in Hq. rewrite E. cbn in Hq.
          apply nth_error_Some. rewrite <- T2. apply nth_error_Some. congruence.
        - exfalso. apply (Hns m Hin). exact E. }
      assert (slot s (n, k) = slot s (m, l)) as K.
      { apply (@cs_slot _ _ _ _ _ _ C n N m M' k l Hn Hm); [congruence|exact Hml|]. congruence. }
      rewrite Hk in K. symmetry in K. apply Hout in K; [|exact Hin]. injection K as -> ->. rewrite Hn in Hm. injection Hm as <-. reflexivity.
  Qed.

  (** a copy that returns was given nodes with proper axis names *)
  Lemma node_copy_named conj n s s' N : node_copy n conj s = (s', Some N) -> named s n.
  Proof using.
    unfold node_copy. intros H. apply bind_inv in H. destruct H as (nd & s1 & H1 & H). apply get_node_inv in H1. destruct H1 as [-> Hn].
    apply bind_inv in H. destruct H as (N1 & s2 & H2 & _). unfold new_node in H2. apply bind_inv in H2. destruct H2 as ([] & s3 & H3 & _).
    apply guard_inv in H3. destruct H3 as [H3 _]. apply andb_true_iff in H3. destruct H3 as [A B]. apply nodupb_spec in A. apply Nat.eqb_eq in B.
    intros nd' E. rewrite Hn in E. injection E as <-. split; [exact A|]. destruct conj; exact B.
  Qed.
  Lemma node_copies_named conj ns : forall s s' Ns, wf s -> (forall n, In n ns -> is_node s n) ->
    mmap (fun n => node_copy n conj) ns s = (s', Some Ns) -> forall n, In n ns -> named s n.
  Proof using.
    induction ns as [|m r IH]; intros s s' Ns W Hns H n Hn; [destruct Hn|]. cbn [mmap] in H.
    apply bind_inv in H. destruct H as (N & s1 & H1 & H). apply bind_inv in H. destruct H as (Ns1 & s2 & H2 & _).
    pose proof (node_copy_named H1) as Hm. destruct Hn as [->|Hn]; [exact Hm|].
    destruct (@node_copy_ok _ conj s m W (Hns m (or_introl eq_refl)) Hm) as (s1' & N' & E & _ & _ & W1 & X & _).
    rewrite H1 in E. injection E as <- <-.
    assert (forall k, In k r -> s_nodes s1 k = s_nodes s k) as Q.
    { intros k Hk. apply X. destruct (is_node_Some (Hns k (or_intror Hk))) as [nd E]. apply (wf_nn W E). }
    assert (named s1 n) as K.
    { apply (IH s1 s2 Ns1 W1); auto. intros k Hk. unfold is_node. rewrite (Q k Hk). apply Hns. right. exact Hk. }
    intros nd E. apply K. rewrite (Q n Hn). exact E.
  Qed.
  Theorem copy_returns conj s ns s' d ee : wf s -> NoDup ns -> (forall n, In n ns -> is_node s n) -> copy iter ns conj s = (s', Some (d, ee)) ->
    copy_spec conj s s' ns d ee.
  Proof.
    intros W HN Hns H.
    assert (forall n, In n ns -> named s n) as Hnm.
    { pose proof H as H0. unfold copy in H0. apply bind_inv in H0. destruct H0 as (Ns & s1 & H1 & _). apply (node_copies_named W Hns H1). }
    destruct (@copy_ok conj s ns W HN) as (s1 & d1 & ee1 & E & C & _); [auto|]. rewrite H in E. injection E as <- <- <-. exact C.
  Qed.
End Phase2.
