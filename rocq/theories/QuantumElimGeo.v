(** * QuantumElimGeo: what stays true of a network while identities are taken out of it *)
From Verif Require Import Prelude Algebra Tensor TensorFacts Einsum EinsumFacts NetworkFacts Graph GraphBase GraphContract GraphOps GraphValue GraphConnect GraphJoin GraphSched GraphQuery GraphQueryFacts GraphLaws GraphCopy GraphCopyFacts GraphDensity NetIso CopyTensor MpsState Quantum QuantumSpec QuantumFacts QuantumUnion QuantumMake QuantumIdent QuantumElim QuantumElimStep.
Set Implicit Arguments.
Unset Strict Implicit.

Section Geo.
  Context {R : cjr}.
  Notation st := (@st R).
  Implicit Types (s : st) (e f g x y : eid) (n m : nid) (p r : nid * nat) (cur rest : list nid) (phi : eid -> eid).
  Notation upd := (upd Nat.eq_dec).

  (** the edge [x] dangles from the slot [r] *)
  Definition oslot s r x : Prop := slot s r = Some x /\ s_edges s x = Some (Edge (fst r) (snd r) None false).
  Lemma open_oslot s n x : wf s -> open_on s n x <-> exists k, oslot s (n, k) x.
  Proof.
    intros W. split.
    - intros (k & Hk & U). exists k. split; [exact Hk|]. destruct (wf_slot W Hk) as (ed & He & Hd & _).
      destruct (slot_partner W Hk He) as [(E2 & Ep & _)|(q & Hq & Hs & _)]; [|exfalso; apply Hq; symmetry; apply (U q Hs)].
      rewrite He. destruct ed as [n1 a1 o ds]. cbn in *. injection Ep as -> ->. subst. reflexivity.
    - intros (k & Hk & He). exists k. split; [exact Hk|]. intros q Hq. apply (dangling_slot W Hq He eq_refl).
  Qed.
  Lemma oslot_unique s r r' x : wf s -> oslot s r x -> slot s r' = Some x -> r' = r.
  Proof. intros W [Hr He] Hr'. rewrite (dangling_slot W Hr' He eq_refl). cbn. symmetry. apply surjective_pairing. Qed.
  Lemma oslot_dangles s r x : oslot s r x -> dangles s r.
  Proof. intros [H1 H2]. exists x. auto. Qed.
  Lemma dangles_oslot s r : dangles s r -> exists x, oslot s r x.
  Proof. intros (x & H1 & H2). exists x. split; assumption. Qed.

  Variable (s0 : st) (E : list eid) (ns : list nid).

  Record geo s phi cur : Prop := {
    g_wf : wf s;
    g_nodup : NoDup cur;
    g_node : forall n, In n cur -> is_node s n;
    g_named : forall n, In n cur -> named s n;
    g_closed : forall r r' x, In (fst r) cur -> slot s r = Some x -> slot s r' = Some x -> In (fst r') cur;
    g_same : forall m d0, s_nodes s0 m = Some d0 -> exists d, s_nodes s m = Some d /\ n_t d = n_t d0 /\ n_names d = n_names d0 /\ length (n_edges d) = length (n_edges d0);
    g_inj : forall e e', In e E -> In e' E -> phi e = phi e' -> e = e';
    g_open : forall x, (exists e, In e E /\ phi e = x) <-> exists r, In (fst r) cur /\ oslot s r x;
    g_fresh : forall e, In e E -> phi e = e \/ s_ne s0 <= phi e;
    g_dim : forall e, In e E -> edim s (phi e) = edim s0 e;
    g_ne : s_ne s0 <= s_ne s;
    g_val : forall a b, (forall e, In e E -> a e < edim s0 e) -> (forall e, In e E -> b (phi e) = a e) -> netval s0 ns a = netval s cur b;
    g_out : forall r, is_node s0 (fst r) -> ~ In (fst r) ns -> slot s r = slot s0 r;
    g_in : forall n, In n cur -> In n ns \/ ~ is_node s0 n;
    g_edges : forall x, x < s_ne s0 -> s_edges s x = s_edges s0 x
  }.

  Lemma geo_perm s phi cur cur' : Permutation cur cur' -> geo s phi cur -> geo s phi cur'.
  Proof.
    intros P G. assert (forall n, In n cur' <-> In n cur) as I by (intros n; split; apply Permutation_in; [symmetry; exact P|exact P]). destruct G. split; auto.
    - apply (Permutation_NoDup P); assumption.
    - intros n Hn. apply g_node0, I, Hn.
    - intros n Hn. apply g_named0, I, Hn.
    - intros r r' x Hr H1 H2. apply I. apply I in Hr. apply (g_closed0 r r' x); assumption.
    - intros x. rewrite (g_open0 x). split; intros (r & Hr & K); exists r; (split; [apply I; exact Hr|exact K]).
    - intros a b Ha Hb. rewrite (g_val0 a b Ha Hb). apply netval_perm. exact P.
    - intros n Hn. apply g_in0, I, Hn.
  Qed.

  Lemma same_nodes_at s s' m d0 : same_nodes s s' -> s_nodes s m = Some d0 -> exists d, s_nodes s' m = Some d /\ n_t d = n_t d0 /\ n_names d = n_names d0 /\ length (n_edges d) = length (n_edges d0).
  Proof. intros Sm H. specialize (Sm m). rewrite H in Sm. destruct (s_nodes s' m) as [d|]; [|contradiction]. exists d. split; [reflexivity|exact Sm]. Qed.
  Lemma same_nodes_named s s' m : same_nodes s s' -> named s m -> named s' m.
  Proof. intros Sm H nd Hn. specialize (Sm m). rewrite Hn in Sm. destruct (s_nodes s m) as [d|] eqn:Ed; [|contradiction]. destruct Sm as (-> & -> & _). apply (H d Ed). Qed.

  (** ** an identity between [p0] and [p1] *)
  Section Splice.
    Variables (s s' : st) (phi : eid -> eid) (n : nid) (rest : list nid) (p0 p1 : nid * nat) (e0 e1 g : eid).
    Hypothesis G : geo s phi (n :: rest).
    Hypothesis Sp : spliced s s' n p0 p1 g.
    Hypothesis S0 : slot s (n, 0) = Some e0.
    Hypothesis S1 : slot s (n, 1) = Some e1.
    Hypothesis S2 : forall k, 2 <= k -> slot s (n, k) = None.
    Hypothesis P0 : slot s p0 = Some e0.
    Hypothesis P1 : slot s p1 = Some e1.
    Hypothesis N0 : fst p0 <> n.
    Hypothesis N1 : fst p1 <> n.
    Hypothesis Hpp : p0 <> p1.

    Let W := g_wf G.
    Lemma splice_in0 : In (fst p0) rest.
    Proof. pose proof (g_closed G (r := (n, 0)) (or_introl eq_refl) S0 P0) as [K|K]; [congruence|exact K]. Qed.
    Lemma splice_in1 : In (fst p1) rest.
    Proof. pose proof (g_closed G (r := (n, 1)) (or_introl eq_refl) S1 P1) as [K|K]; [congruence|exact K]. Qed.
    Lemma splice_notn m : In m rest -> m <> n.
    Proof. intros H ->. pose proof (g_nodup G) as K. apply NoDup_cons_iff in K. tauto. Qed.
    Lemma splice_u0 r : slot s r = Some e0 -> r = (n, 0) \/ r = p0.
    Proof.
      intros Hr. destruct (wf_slot W S0) as (ed & He & _). destruct (slot_partner W S0 He) as [(_ & _ & U)|(q & _ & _ & _ & U)]; [left; apply U; exact Hr|].
      destruct (U _ P0) as [K|K]; [exfalso; apply N0; rewrite K; reflexivity|]. subst q. apply U. exact Hr.
    Qed.
    Lemma splice_u1 r : slot s r = Some e1 -> r = (n, 1) \/ r = p1.
    Proof.
      intros Hr. destruct (wf_slot W S1) as (ed & He & _). destruct (slot_partner W S1 He) as [(_ & _ & U)|(q & _ & _ & _ & U)]; [left; apply U; exact Hr|].
      destruct (U _ P1) as [K|K]; [exfalso; apply N1; rewrite K; reflexivity|]. subst q. apply U. exact Hr.
    Qed.
    (** no loose end at the identity *)
    Lemma splice_n_open k x : ~ oslot s (n, k) x.
    Proof.
      intros H. destruct k as [|[|k]].
      - destruct H as [H1 H2]. rewrite S0 in H1. injection H1 as <-. apply N0. rewrite (oslot_unique W (conj S0 H2) P0). reflexivity.
      - destruct H as [H1 H2]. rewrite S1 in H1. injection H1 as <-. apply N1. rewrite (oslot_unique W (conj S1 H2) P1). reflexivity.
      - destruct H as [H1 _]. rewrite S2 in H1 by lia. discriminate.
    Qed.
    Lemma splice_oslot r x : fst r <> n -> oslot s' r x <-> oslot s r x.
    Proof.
      intros Hr. assert (forall q, q = p0 \/ q = p1 -> ~ oslot s' q x) as K1.
      { intros q Hq [H1 H2].
        assert (x = g) as -> by (destruct Hq as [-> | ->]; [rewrite (sp_p0 Sp) in H1|rewrite (sp_p1 Sp) in H1]; congruence).
        apply Hpp. rewrite (oslot_unique (sp_wf Sp) (conj H1 H2) (sp_p0 Sp)), (oslot_unique (sp_wf Sp) (conj H1 H2) (sp_p1 Sp)). reflexivity. }
      assert (forall q, q = p0 \/ q = p1 -> ~ oslot s q x) as K2.
      { intros q Hq [H1 H2]. destruct Hq as [-> | ->].
        - rewrite P0 in H1. injection H1 as <-. apply N0. rewrite <- (oslot_unique W (conj P0 H2) S0). reflexivity.
        - rewrite P1 in H1. injection H1 as <-. apply N1. rewrite <- (oslot_unique W (conj P1 H2) S1). reflexivity. }
      split; intros H.
      - assert (r <> p0 /\ r <> p1) as [A1 A2] by (split; intros K; [exact (K1 _ (or_introl K) H)|exact (K1 _ (or_intror K) H)]). destruct H as [H1 H2]. rewrite (sp_slot Sp Hr A1 A2) in H1.
        split; [exact H1|]. rewrite <- (sp_old Sp (x := x)); [exact H2|]. apply (slot_lt W H1).
      - assert (r <> p0 /\ r <> p1) as [A1 A2] by (split; intros K; [exact (K2 _ (or_introl K) H)|exact (K2 _ (or_intror K) H)]). destruct H as [H1 H2].
        split; [rewrite (sp_slot Sp Hr A1 A2); exact H1|]. rewrite (sp_old Sp (x := x)); [exact H2|]. apply (slot_lt W H1).
    Qed.
    (** slots that share an edge still do, unless it was an edge of the identity *)
    Lemma splice_slot r x : fst r <> n -> slot s' r = Some x -> (r <> p0 /\ r <> p1 /\ slot s r = Some x /\ x < s_ne s) \/ ((r = p0 \/ r = p1) /\ x = g).
    Proof.
      intros Hr H. destruct (slot_eqb_spec r p0) as [->|A1]; [right; rewrite (sp_p0 Sp) in H; split; [auto|congruence]|].
      destruct (slot_eqb_spec r p1) as [->|A2]; [right; rewrite (sp_p1 Sp) in H; split; [auto|congruence]|].
      left. rewrite (sp_slot Sp Hr A1 A2) in H. repeat split; auto. apply (slot_lt W H).
    Qed.

    Lemma geo_splice : geo s' phi rest.
    Proof.
      pose proof (g_nodup G) as ND. pose proof ND as ND'. apply NoDup_cons_iff in ND'. destruct ND' as [Hnr NDr].
      pose proof (sp_wf Sp) as W'. pose proof splice_in0 as I0. pose proof splice_in1 as I1. split; auto.
      - intros m Hm. apply (same_nodes_is m (sp_same Sp)). apply (g_node G). right. exact Hm.
      - intros m Hm. apply (same_nodes_named (sp_same Sp)). apply (g_named G). right. exact Hm.
      - intros r r' x Hr H1 H2. pose proof (splice_notn Hr) as Hrn.
        destruct (Nat.eq_dec (fst r') n) as [En|En].
        { exfalso. destruct r' as [n' k]. cbn in En. subst n'.
          assert (k < 2) as Hk. { destruct (same_nodes_slot (sp_same Sp) H2) as (y & Hy). destruct (le_lt_dec 2 k) as [K|K]; [rewrite (S2 K) in Hy; discriminate|exact K]. }
          destruct (sp_n Sp Hk) as (y & Y1 & Y2 & Y3). rewrite H2 in Y1. injection Y1 as <-. pose proof (dangling_slot W' H1 Y3 eq_refl) as K. apply Hrn. rewrite K. reflexivity. }
        destruct (splice_slot Hrn H1) as [(A1 & A2 & A3 & A4)|[A1 ->]]; destruct (splice_slot En H2) as [(B1 & B2 & B3 & B4)|[B1 B2]].
        + destruct (g_closed G (or_intror Hr) A3 B3) as [K|K]; [congruence|exact K].
        + pose proof (sp_g Sp). lia.
        + pose proof (sp_g Sp). lia.
        + destruct B1 as [-> | ->]; assumption.
      - intros m d0 H. destruct (g_same G H) as (d & D1 & D2 & D3 & D4). destruct (same_nodes_at (sp_same Sp) D1) as (d' & K1 & K2 & K3 & K4). exists d'. repeat split; congruence.
      - apply (g_inj G).
      - intros x. rewrite (g_open G x). split; intros (r & Hr & Ho).
        + destruct Hr as [Hr|Hr]; [exfalso; destruct r as [n' k]; cbn in Hr; subst n'; apply (splice_n_open Ho)|]. exists r. split; [exact Hr|]. apply splice_oslot; [apply splice_notn; exact Hr|exact Ho].
        + exists r. split; [right; exact Hr|]. apply splice_oslot; [apply splice_notn; exact Hr|exact Ho].
      - apply (g_fresh G).
      - intros e He. destruct (proj1 (g_open G (phi e)) (ex_intro _ e (conj He eq_refl))) as (r & Hr & Ho).
        assert (fst r <> n) as Hrn by (intros K; destruct r as [n' k]; cbn in K; subst n'; apply (splice_n_open Ho)).
        pose proof (proj2 (splice_oslot _ Hrn) Ho) as Ho'. pose proof (edim_dimat W' (proj1 Ho')) as D. rewrite (same_nodes_dimat r (sp_same Sp)), (edim_dimat W (proj1 Ho)) in D.
        injection D as D. rewrite <- D. apply (g_dim G He).
      - pose proof (g_ne G). pose proof (sp_ne Sp). lia.
      - intros a b Ha Hb. rewrite (g_val G Ha Hb). apply (sp_val Sp b ND I0 I1).
      - intros r Hr1 Hr2. assert (forall m, In m (n :: rest) -> m <> fst r) as K.
        { intros m Hm ->. destruct (g_in G Hm); contradiction. }
        rewrite (sp_slot Sp); [apply (g_out G Hr1 Hr2)| | |].
        + intros Q. apply (K n); [left; reflexivity|congruence].
        + intros ->. apply (K (fst p0)); [right; exact I0|reflexivity].
        + intros ->. apply (K (fst p1)); [right; exact I1|reflexivity].
      - intros m Hm. apply (g_in G). right. exact Hm.
      - intros x Hx. pose proof (g_ne G). rewrite (sp_old Sp) by lia. apply (g_edges G Hx).
    Qed.

    (** connections: the identity may be replaced by its neighbour *)
    Definition past y : nid := if Nat.eqb y n then fst p0 else y.
    Lemma splice_conn m m' : connected s m m' -> connected s' (past m) (past m').
    Proof.
      intros H. induction H as [m|m l l' e _ IH H1 H2]; [apply conn_refl|]. apply (connected_trans IH). clear IH.
      assert (connected s' (fst p0) (fst p1)) as J.
      { apply (@connected_step _ s' (fst p0) (fst p1) g); [exists (snd p0)|exists (snd p1)]; rewrite <- surjective_pairing; [apply (sp_p0 Sp)|apply (sp_p1 Sp)]. }
      assert (forall l e, l <> n -> on s l e -> on s n e -> connected s' l (fst p0)) as A.
      { intros l1 e' Hl (k1 & K1) (k2 & K2). assert (k2 = 0 \/ k2 = 1) as [-> | ->]. { destruct k2 as [|[|k2]]; auto. rewrite S2 in K2 by lia. discriminate. }
        - rewrite S0 in K2. injection K2 as <-. destruct (splice_u0 K1) as [K|<-]; [injection K as K; contradiction|apply conn_refl].
        - rewrite S1 in K2. injection K2 as <-. destruct (splice_u1 K1) as [K|K]; [injection K as K; contradiction|]. rewrite <- K in J. apply connected_sym. exact J. }
      unfold past. destruct (Nat.eqb_spec l n) as [->|Nl], (Nat.eqb_spec l' n) as [->|Nl'].
      - apply conn_refl.
      - apply connected_sym. apply (A l' e); assumption.
      - apply (A l e); assumption.
      - destruct H1 as (k1 & K1), H2 as (k2 & K2).
        destruct (slot_eqb_spec (l, k1) p0) as [E0|D0].
        { assert (e = e0) as -> by congruence. destruct (splice_u0 K2) as [K|K]; [injection K as K; contradiction|]. assert (l = l') as -> by congruence. apply conn_refl. }
        destruct (slot_eqb_spec (l, k1) p1) as [E1|D1].
        { assert (e = e1) as -> by congruence. destruct (splice_u1 K2) as [K|K]; [injection K as K; contradiction|]. assert (l = l') as -> by congruence. apply conn_refl. }
        assert ((l', k2) <> p0) as F0. { intros K. assert (e = e0) as -> by congruence. destruct (splice_u0 K1) as [Q|Q]; [injection Q as Q; contradiction|contradiction]. }
        assert ((l', k2) <> p1) as F1. { intros K. assert (e = e1) as -> by congruence. destruct (splice_u1 K1) as [Q|Q]; [injection Q as Q; contradiction|contradiction]. }
        apply (@connected_step _ s' l l' e); [exists k1|exists k2]; rewrite (sp_slot Sp); cbn; assumption.
    Qed.
  End Splice.

  (** ** an identity with the loose end [x] and the neighbour [p] *)
  Section Trim.
    Variables (s s' : st) (phi : eid -> eid) (n : nid) (rest : list nid) (k : nat) (p : nid * nat) (x y f g : eid).
    Hypothesis G : geo s phi (n :: rest).
    Hypothesis C : cut s s' p (n, 1 - k) y f g.
    Hypothesis Hk : k < 2.
    Hypothesis Hx : oslot s (n, k) x.
    Hypothesis Hy : slot s (n, 1 - k) = Some y.
    Hypothesis S2 : forall k, 2 <= k -> slot s (n, k) = None.
    Hypothesis Hp : slot s p = Some y.
    Hypothesis Np : fst p <> n.
    Hypothesis Val : forall rest a, NoDup (n :: rest) -> In (fst p) rest -> a x < edim s x -> netval s (n :: rest) a = netval s' rest (upd a f (a x)).
    Hypothesis Dxy : dimat s (n, k) = dimat s (n, 1 - k).
    Definition redirect (e : eid) : eid := if Nat.eqb (phi e) x then f else phi e.

    Let W := g_wf G.
    Let W' := ct_wf C.
    Lemma trim_in : In (fst p) rest.
    Proof. pose proof (g_closed G (r := (n, 1 - k)) (or_introl eq_refl) Hy Hp) as [K|K]; [congruence|exact K]. Qed.
    Lemma trim_notn m : In m rest -> m <> n.
    Proof. intros H ->. pose proof (g_nodup G) as K. apply NoDup_cons_iff in K. tauto. Qed.
    Lemma trim_pn : p <> (n, 1 - k).
    Proof. intros K. apply Np. rewrite K. reflexivity. Qed.
    Lemma trim_slot r : fst r <> n -> slot s' r = if slot_eqb r p then Some f else slot s r.
    Proof. intros Hr. rewrite (ct_slot C). destruct (slot_eqb_spec r p); [reflexivity|]. destruct (slot_eqb_spec r (n, 1 - k)) as [->|]; [cbn in Hr; contradiction|reflexivity]. Qed.
    Lemma trim_u r : slot s r = Some y -> r = (n, 1 - k) \/ r = p.
    Proof.
      intros Hr. destruct (wf_slot W Hy) as (ed & He & _). destruct (slot_partner W Hy He) as [(_ & _ & U)|(q & _ & _ & _ & U)]; [left; apply U; exact Hr|].
      destruct (U _ Hp) as [K|K]; [exfalso; apply Np; rewrite K; reflexivity|]. subst q. apply U. exact Hr.
    Qed.
    Lemma trim_two j : j < 2 -> j = k \/ j = 1 - k.
    Proof. lia. Qed.
    Lemma trim_nslot j z : slot s (n, j) = Some z -> (j = k /\ z = x) \/ (j = 1 - k /\ z = y).
    Proof.
      intros H. assert (j < 2) as Hj. { destruct (le_lt_dec 2 j) as [K|K]; [rewrite (S2 K) in H; discriminate|exact K]. }
      destruct (trim_two Hj) as [-> | ->]; [left; destruct Hx; split; congruence|right; split; congruence].
    Qed.
    Lemma trim_n_open j z : oslot s (n, j) z -> j = k /\ z = x.
    Proof.
      intros H. destruct (trim_nslot (proj1 H)) as [K|[-> ->]]; [exact K|]. exfalso. apply Np. rewrite (oslot_unique W H Hp). reflexivity.
    Qed.
    Lemma trim_oslot r z : fst r <> n -> oslot s' r z <-> (r = p /\ z = f) \/ oslot s r z.
    Proof.
      intros Hr. split.
      - intros [H1 H2]. rewrite (trim_slot Hr) in H1. destruct (slot_eqb_spec r p) as [->|N]; [left; split; congruence|]. right. split; [exact H1|].
        rewrite <- (ct_old C); [exact H2|apply (slot_lt W H1)].
      - intros [[-> ->]|[H1 H2]].
        + split; [apply (cut_p C)|apply (ct_ef C)].
        + assert (r <> p) as N. { intros ->. rewrite Hp in H1. injection H1 as <-. apply Np. rewrite <- (oslot_unique W (conj Hp H2) Hy). reflexivity. }
          split; [rewrite (trim_slot Hr); destruct (slot_eqb_spec r p); [contradiction|exact H1]|]. rewrite (ct_old C); [exact H2|apply (slot_lt W H1)].
    Qed.
    Lemma trim_lt r z : slot s r = Some z -> z < f.
    Proof. intros H. pose proof (slot_lt W H). pose proof (ct_f C). lia. Qed.
    Lemma trim_phi_lt e : In e E -> phi e < s_ne s.
    Proof. intros He. destruct (proj1 (g_open G (phi e)) (ex_intro _ e (conj He eq_refl))) as (r & _ & Ho). apply (slot_lt W (proj1 Ho)). Qed.
    Lemma trim_e : exists e, In e E /\ phi e = x.
    Proof. apply (g_open G). exists (n, k). split; [left; reflexivity|exact Hx]. Qed.

    Lemma geo_trim : geo s' redirect rest.
    Proof.
      pose proof (g_nodup G) as ND. pose proof ND as ND'. apply NoDup_cons_iff in ND'. destruct ND' as [Hnr NDr].
      pose proof trim_in as Ip. pose proof (ct_f C) as Bf. pose proof (ct_ne C) as Bn. destruct trim_e as (ex & Hex & Exx). split; auto.
      - intros m Hm. apply (same_nodes_is m (ct_same C)). apply (g_node G). right. exact Hm.
      - intros m Hm. apply (same_nodes_named (ct_same C)). apply (g_named G). right. exact Hm.
      - intros r r' z Hr H1 H2. pose proof (trim_notn Hr) as Hrn.
        rewrite (trim_slot Hrn) in H1. destruct (slot_eqb_spec r p) as [->|Nr].
        { injection H1 as <-. rewrite (cut_uf C H2). exact Ip. }
        pose proof (slot_lt W H1) as [_ Lz]. destruct (cut_old C H2 Lz) as (A1 & A2 & A3).
        destruct (g_closed G (or_intror Hr) H1 A3) as [K|K]; [|exact K]. exfalso. destruct r' as [n' j]. cbn in K. subst n'.
        destruct (trim_nslot A3) as [[-> ->]|[-> ->]]; [|contradiction]. apply Hrn. rewrite (oslot_unique W Hx H1). reflexivity.
      - intros m d0 H. destruct (g_same G H) as (d & D1 & D2 & D3 & D4). destruct (same_nodes_at (ct_same C) D1) as (d' & K1 & K2 & K3 & K4). exists d'. repeat split; congruence.
      - intros e e' He He' K. unfold redirect in K. pose proof (trim_phi_lt He). pose proof (trim_phi_lt He').
        destruct (Nat.eqb_spec (phi e) x), (Nat.eqb_spec (phi e') x); try lia; apply (g_inj G He He'); congruence.
      - intros z. split.
        + intros (e & He & <-). unfold redirect. destruct (Nat.eqb_spec (phi e) x) as [K|K].
          * exists p. split; [exact Ip|]. apply trim_oslot; auto.
          * destruct (proj1 (g_open G (phi e)) (ex_intro _ e (conj He eq_refl))) as (r & Hr & Ho).
            destruct Hr as [Hr|Hr]. { destruct r as [n' j]. cbn in Hr. subst n'. exfalso. apply K. apply (trim_n_open Ho). }
            exists r. split; [exact Hr|]. apply trim_oslot; [apply trim_notn; exact Hr|auto].
        + intros (r & Hr & Ho). apply (trim_oslot _ (trim_notn Hr)) in Ho. destruct Ho as [[-> ->]|Ho].
          * exists ex. split; [exact Hex|]. unfold redirect. rewrite Exx, Nat.eqb_refl. reflexivity.
          * destruct (proj2 (g_open G z)) as (e & He & Ez); [exists r; split; [right; exact Hr|exact Ho]|]. exists e. split; [exact He|]. unfold redirect.
            destruct (Nat.eqb_spec (phi e) x) as [K|K]; [|exact Ez]. exfalso. apply (trim_notn Hr). assert (z = x) as -> by congruence. rewrite (oslot_unique W Hx (proj1 Ho)). reflexivity.
      - intros e He. unfold redirect. destruct (Nat.eqb_spec (phi e) x) as [K|K]; [right; pose proof (g_ne G); lia|apply (g_fresh G He)].
      - intros e He. unfold redirect. destruct (Nat.eqb_spec (phi e) x) as [K|K].
        + rewrite (cut_edim_f C W Hp). rewrite <- (g_dim G He), K.
          pose proof (edim_dimat W Hy) as D1. pose proof (edim_dimat W (proj1 Hx)) as D2.
          assert (dimat s (n, k) = dimat s (n, 1 - k)) as Q by exact Dxy.
          congruence.
        + destruct (proj1 (g_open G (phi e)) (ex_intro _ e (conj He eq_refl))) as (r & Hr & Ho).
          assert (fst r <> n) as Hrn. { intros Q. destruct r as [n' j]. cbn in Q. subst n'. apply K. apply (trim_n_open Ho). }
          pose proof (proj2 (trim_oslot (phi e) Hrn) (or_intror Ho)) as Ho'. rewrite (cut_edim C W (proj1 Ho') (proj1 Ho)). apply (g_dim G He).
      - pose proof (g_ne G). lia.
      - intros a b Ha Hb. set (b0 := upd b x (b f)).
        assert (b f = a ex) as Hbf by (rewrite <- (Hb ex Hex); unfold redirect; rewrite Exx, Nat.eqb_refl; reflexivity).
        assert (forall e, In e E -> b0 (phi e) = a e) as Hb0.
        { intros e He. unfold b0, Prelude.upd. destruct (Nat.eq_dec (phi e) x) as [K|K].
          - assert (e = ex) as -> by (apply (g_inj G He Hex); congruence). exact Hbf.
          - rewrite <- (Hb e He). unfold redirect. destruct (Nat.eqb_spec (phi e) x); [contradiction|reflexivity]. }
        rewrite (g_val G Ha Hb0). assert (b0 x = b f) as Hb0x by (unfold b0; apply upd_same). rewrite (Val ND Ip).
        + apply netval_ext_asg. intros z Hz.
          assert (In z (net_labels (net_of s' rest))) as Hz' by (apply (count_occ_In Nat.eq_dec); lia).
          apply In_net_labels in Hz'. destruct Hz' as (m & Hm & (j & Hj)).
          assert (z <> x) as Nz.
          { intros ->. pose proof (slot_lt W (proj1 Hx)) as [_ Lx]. destruct (cut_old C Hj Lx) as (_ & _ & A3). pose proof (oslot_unique W Hx A3) as K. injection K as -> _. apply (trim_notn Hm). reflexivity. }
          unfold Prelude.upd. destruct (Nat.eq_dec z f) as [->|]; [exact Hb0x|]. unfold b0, Prelude.upd. destruct (Nat.eq_dec z x); [contradiction|reflexivity].
        + rewrite Hb0x, Hbf, <- Exx, (g_dim G Hex). apply Ha. exact Hex.
      - intros r Hr1 Hr2. assert (forall m, In m (n :: rest) -> m <> fst r) as K.
        { intros m Hm ->. destruct (g_in G Hm); contradiction. }
        rewrite trim_slot; [|intros Q; apply (K n); [left; reflexivity|congruence]].
        destruct (slot_eqb_spec r p) as [->|]; [exfalso; apply (K (fst p)); [right; exact Ip|reflexivity]|]. apply (g_out G Hr1 Hr2).
      - intros m Hm. apply (g_in G). right. exact Hm.
      - intros z Hz. pose proof (g_ne G). rewrite (ct_old C) by lia. apply (g_edges G Hz).
    Qed.

    Definition past1 m : nid := if Nat.eqb m n then fst p else m.
    Lemma trim_conn m m' : connected s m m' -> connected s' (past1 m) (past1 m').
    Proof.
      intros H. induction H as [m|m l l' e _ IH H1 H2]; [apply conn_refl|]. apply (connected_trans IH). clear IH.
      assert (forall l e, l <> n -> on s l e -> on s n e -> l = fst p) as A.
      { intros l1 e' Hl (k1 & K1) (k2 & K2). destruct (trim_nslot K2) as [[-> ->]|[-> ->]].
        - exfalso. apply Hl. pose proof (oslot_unique W Hx K1) as K. congruence.
        - destruct (trim_u K1) as [K|K]; [injection K as K; contradiction|]. rewrite <- K. reflexivity. }
      unfold past1. destruct (Nat.eqb_spec l n) as [->|Nl], (Nat.eqb_spec l' n) as [->|Nl'].
      - apply conn_refl.
      - rewrite (A l' e Nl' H2 H1). apply conn_refl.
      - rewrite (A l e Nl H1 H2). apply conn_refl.
      - destruct H1 as (k1 & K1), H2 as (k2 & K2).
        destruct (slot_eqb_spec (l, k1) p) as [E0|D0].
        { assert (e = y) as -> by congruence. destruct (trim_u K2) as [K|K]; [injection K as K; contradiction|]. assert (l = l') as -> by congruence. apply conn_refl. }
        assert ((l', k2) <> p) as F0. { intros K. assert (e = y) as -> by congruence. destruct (trim_u K1) as [Q|Q]; [injection Q as Q; contradiction|contradiction]. }
        apply (@connected_step _ s' l l' e); [exists k1|exists k2]; rewrite trim_slot by assumption.
        + destruct (slot_eqb_spec (l, k1) p); [contradiction|exact K1].
        + destruct (slot_eqb_spec (l', k2) p); [contradiction|exact K2].
    Qed.
  End Trim.

  (** ** a node without loose ends that is connected to itself only, replaced by a number *)
  Section Trace.
    Variables (s s' : st) (phi : eid -> eid) (n N : nid) (rest : list nid) (t : tensor R).
    Hypothesis G : geo s phi (n :: rest).
    Hypothesis L : leaf s s' t N [].
    Hypothesis Ne : s_ne s <= s_ne s'.
    Hypothesis Old : forall x, x < s_ne s -> s_edges s' x = s_edges s x.
    Hypothesis Closed : forall k x r, slot s (n, k) = Some x -> slot s r = Some x -> fst r = n.
    Hypothesis Loose : forall k x, ~ oslot s (n, k) x.
    Hypothesis Val : forall rest a, NoDup (n :: rest) -> (forall m, In m rest -> is_node s m) -> netval s (n :: rest) a = netval s' (N :: rest) a.

    Let W := g_wf G.
    Let K := lf_kept L.
    Lemma trace_fresh m : is_node s m -> m <> N.
    Proof. intros H ->. apply (lf_fresh L H). Qed.
    Lemma trace_rest m : In m rest -> is_node s m /\ m <> n /\ m <> N.
    Proof.
      intros H. pose proof (g_node G (or_intror H)) as Q. split; [exact Q|]. split; [|apply trace_fresh; exact Q].
      intros ->. pose proof (g_nodup G) as ND. apply NoDup_cons_iff in ND. tauto.
    Qed.
    Lemma trace_N k : slot s' (N, k) = None.
    Proof. destruct (slot s' (N, k)) as [x|] eqn:Q; [|reflexivity]. exfalso. apply (proj1 (leaf_on L x)). exists k. exact Q. Qed.
    Lemma trace_oslot r x : is_node s (fst r) -> oslot s' r x <-> oslot s r x.
    Proof.
      intros Hr. unfold oslot. rewrite (kept_slot K Hr). split; intros [H1 H2]; (split; [exact H1|]).
      - rewrite (k_edges K (m := fst r) (e := x)) in H2; [exact H2|]. exists (snd r). rewrite <- surjective_pairing. exact H1.
      - rewrite (k_edges K (m := fst r) (e := x)); [exact H2|]. exists (snd r). rewrite <- surjective_pairing. exact H1.
    Qed.
    Lemma geo_trace : geo s' phi (N :: rest).
    Proof.
      pose proof (g_nodup G) as ND. pose proof ND as ND'. apply NoDup_cons_iff in ND'. destruct ND' as [Hnr NDr].
      pose proof (lf_wf L) as W'. split; auto.
      - constructor; [|exact NDr]. intros H. destruct (trace_rest H) as (_ & _ & Q). apply Q. reflexivity.
      - intros m [<-|Hm]; [unfold is_node; rewrite (lf_node L); discriminate|]. apply (kept_node K). apply trace_rest. exact Hm.
      - intros m [<-|Hm]; [intros nd Hnd; rewrite (lf_node L) in Hnd; injection Hnd as <-; cbn; split; [apply seq_NoDup|apply seq_length]|].
        intros nd Hnd. rewrite (k_nodes K) in Hnd by (apply trace_rest; exact Hm). apply (g_named G (or_intror Hm) Hnd).
      - intros r r' x Hr H1 H2. destruct Hr as [Hr|Hr]; [exfalso; destruct r as [n' j]; cbn in Hr; subst n'; rewrite trace_N in H1; discriminate|].
        pose proof (trace_rest Hr) as (Q1 & Q2 & Q3). pose proof H1 as H1'. rewrite (kept_slot K Q1) in H1.
        assert (is_node s (fst r')) as Q4.
        { apply (k_sep K (m := fst r) (n := fst r') (e := x) Q1); [exists (snd r)|exists (snd r')]; rewrite <- surjective_pairing; assumption. }
        rewrite (kept_slot K Q4) in H2. destruct (g_closed G (or_intror Hr) H1 H2) as [Q|Q]; [|right; exact Q].
        exfalso. apply Q2. destruct r' as [n' j]. cbn in Q. subst n'. apply (Closed H2 H1).
      - intros m d0 H. destruct (g_same G H) as (d & D1 & D2). exists d. split; [|exact D2]. rewrite (k_nodes K); [exact D1|]. unfold is_node. congruence.
      - apply (g_inj G).
      - intros x. rewrite (g_open G x). split; intros (r & Hr & Ho).
        + destruct Hr as [Hr|Hr]; [exfalso; destruct r as [n' j]; cbn in Hr; subst n'; apply (Loose Ho)|]. exists r. split; [right; exact Hr|]. apply trace_oslot; [apply (trace_rest Hr)|exact Ho].
        + destruct Hr as [Hr|Hr]; [exfalso; destruct Ho as [Ho _]; destruct r as [n' j]; cbn in Hr; subst n'; rewrite trace_N in Ho; discriminate|].
          exists r. split; [right; exact Hr|]. apply trace_oslot; [apply (trace_rest Hr)|exact Ho].
      - apply (g_fresh G).
      - intros e He. destruct (proj1 (g_open G (phi e)) (ex_intro _ e (conj He eq_refl))) as (r & Hr & Ho).
        rewrite (kept_edim W W' K (n := fst r)); [apply (g_dim G He)|]. exists (snd r). rewrite <- surjective_pairing. apply Ho.
      - pose proof (g_ne G). lia.
      - intros a b Ha Hb. rewrite (g_val G Ha Hb). apply (Val b ND). intros m Hm. apply (trace_rest Hm).
      - intros r Hr1 Hr2. rewrite (kept_slot K); [apply (g_out G Hr1 Hr2)|]. destruct (is_node_Some Hr1) as [d0 Q]. destruct (g_same G Q) as (d & Q' & _). unfold is_node. congruence.
      - intros m [<-|Hm]; [|apply (g_in G); right; exact Hm]. right. intros Q. apply is_node_Some in Q. destruct Q as [d0 Q]. destruct (g_same G Q) as (d & Q' & _). apply (lf_fresh L). unfold is_node. congruence.
      - intros x Hx. rewrite <- (g_edges G Hx). apply Old. pose proof (g_ne G). lia.
    Qed.
    Lemma trace_conn m m' : is_node s m -> connected s m m' -> connected s' m m'.
    Proof. intros H. apply (kept_conn m' K H). Qed.
    Lemma trace_alone m : connected s m n -> m = n.
    Proof.
      intros H. apply connected_sym in H. remember n as n0 eqn:En in H. induction H as [m|m l l' e _ IH H1 H2]; [exact En|].
      specialize (IH En). subst l. destruct H1 as (k1 & K1), H2 as (k2 & K2). apply (Closed K1 K2).
    Qed.
  End Trace.
End Geo.
