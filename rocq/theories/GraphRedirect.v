(** * GraphRedirect: redirect_edge onto a dangling axis of the same dimension *)
From Verif Require Import Prelude Algebra Tensor TensorFacts Einsum EinsumFacts NetworkFacts Graph GraphBase GraphContract GraphOps GraphValue GraphOuter GraphConnect GraphProg GraphSched GraphLaws.
Set Implicit Arguments.
Unset Strict Implicit.

Section GR.
  Context {R : csr}.
  Notation st := (@st R).
  Implicit Types (s : st) (e : eid).

  Definition move_end (o q p : nid * nat) : nid * nat := if slot_eqb p o then q else p.

  Lemma redirect_wf s s' e ed ed' old new k f : wf s -> slot s (old, k) = Some e -> s_edges s e = Some ed ->
    old <> new -> dangles s (new, k) -> dimat s (new, k) = dimat s (old, k) ->
    same_nodes s s' -> f = s_ne s -> s_ne s' = S (s_ne s) -> s_nn s' = s_nn s ->
    (forall p, slot s' p = if slot_eqb p (old, k) then Some f else if slot_eqb p (new, k) then Some e else slot s p) ->
    s_edges s' f = Some (Edge old k None false) -> s_edges s' e = Some ed' -> e_dis ed' = false -> ends ed' = map (move_end (old, k) (new, k)) (ends ed) ->
    (forall c, c <> e -> c <> f -> s_edges s' c = s_edges s c) -> wf s'.
  Proof.
    intros W Ho He Hne Hd Hdim SN Ef Ene Enn Hsl Hf He' Hdis Hends Hother.
    destruct (same_nodes_wf_base SN W) as [B1 B2]; [lia|].
    assert (e < s_ne s) as Le by apply (slot_lt W Ho).
    split; [exact B1|exact B2| |].
    { intros c d Hc. destruct (Nat.eq_dec c e) as [->|]; [lia|]. destruct (Nat.eq_dec c f) as [->|]; [lia|]. rewrite Hother in Hc by assumption. pose proof (wf_ne W Hc). lia. }
    destruct (wf_slot W Ho) as (ed0 & E0 & D0 & I0 & N0 & K0). rewrite He in E0. injection E0 as <-. specialize (K0 (fun x => x)).
    destruct Hd as (g & Hg & Eg). cbn [fst snd] in Eg.
    assert (forall p, slot s p = Some g -> p = (new, k)) as Ug. { intros p Hp. apply (dangling_slot W Hp Eg eq_refl). }
    assert (g <> e) as Hge. { intros ->. specialize (Ug _ Ho). congruence. }
    assert (~ In (new, k) (ends ed)) as Hnew. { intros K. apply K0 in K. destruct K as [K _]. congruence. }
    assert (NoDup (ends ed')) as N'.
    { rewrite Hends. apply NoDup_map_in; [|exact N0]. intros x y Hx Hy. unfold move_end. destruct (slot_eqb_spec x (old, k)), (slot_eqb_spec y (old, k)); subst; auto; intros; subst; contradiction. }
    intros p c Hp. rewrite Hsl in Hp. destruct (slot_eqb_spec p (old, k)) as [->|Np].
    - injection Hp as <-. exists (Edge old k None false). split; [exact Hf|]. split; [reflexivity|]. unfold ends. cbn. split; [auto|]. split; [repeat constructor; intros []|].
      intros _ q [<-|[]]. rewrite Hsl. destruct (slot_eqb_spec (old, k) (old, k)); [auto|congruence].
    - assert (c = e /\ (p = (new, k) \/ slot s p = Some e) \/ (slot s p = Some c /\ c <> e /\ p <> (new, k))) as C.
      { destruct (slot_eqb_spec p (new, k)) as [->|]; [left; injection Hp as <-; auto|]. destruct (Nat.eq_dec c e) as [->|]; [left; auto|right; auto]. }
      assert (forall q, In q (ends ed') -> slot s' q = Some e /\ dimat s' q = dimat s (old, k)) as Q.
      { intros q Hq. rewrite Hends in Hq. apply in_map_iff in Hq. destruct Hq as (r & Hr & Hin). destruct (K0 r Hin) as [Q1 Q2]. rewrite (same_nodes_dimat _ SN), Hsl. unfold move_end in Hr.
        destruct (slot_eqb_spec r (old, k)) as [Er|Nr]; [rewrite <- Hr|rewrite <- Hr].
        - destruct (slot_eqb_spec (new, k) (old, k)); [congruence|]. destruct (slot_eqb_spec (new, k) (new, k)); [auto|congruence].
        - destruct (slot_eqb_spec r (old, k)); [congruence|]. destruct (slot_eqb_spec r (new, k)) as [Er|]; [rewrite Er in Hin; contradiction|]. auto. }
      destruct C as [(-> & C)|(Cs & Cne & Cp)].
      + exists ed'. split; [exact He'|]. split; [exact Hdis|].
        assert (In p (ends ed')) as Ip.
        { rewrite Hends. destruct C as [->|C].
          - apply in_map_iff. exists (old, k). split; [unfold move_end; destruct (slot_eqb_spec (old, k) (old, k)); [reflexivity|congruence]|exact I0].
          - apply in_map_iff. exists p. split; [unfold move_end; destruct (slot_eqb_spec p (old, k)); [contradiction|reflexivity]|apply (live_in_ends W C He)]. }
        split; [exact Ip|]. split; [exact N'|]. intros _ q Hq. destruct (Q q Hq) as [Q1 Q2]. split; [exact Q1|]. rewrite Q2. symmetry. apply (Q p Ip).
      + destruct (wf_slot W Cs) as (dc & Ec & Dc & Ic & Nc & Kc). exists dc. assert (c < s_ne s) as Lc by apply (slot_lt W Cs).
        split; [rewrite Hother by lia; exact Ec|]. split; [exact Dc|]. split; [exact Ic|]. split; [exact Nc|]. intros _ q Hq. destruct (Kc (fun x => x) q Hq) as [Q1 Q2].
        rewrite !(same_nodes_dimat _ SN). split; [|exact Q2]. rewrite Hsl. destruct (slot_eqb_spec q (old, k)) as [->|]; [congruence|].
        destruct (slot_eqb_spec q (new, k)) as [->|]; [|exact Q1]. exfalso. rewrite Hg in Q1. injection Q1 as <-. apply Cp, (Ug p Cs).
  Qed.

  Theorem redirect_law s e ed old new k : wf s -> slot s (old, k) = Some e -> s_edges s e = Some ed -> is_trace_edge ed = false ->
    old <> new -> dangles s (new, k) -> dimat s (new, k) = dimat s (old, k) ->
    exists s', redirect_edge e new old s = (s', Some tt) /\ wf s' /\ same_nodes s s' /\
      slot s' (new, k) = Some e /\ dangles s' (old, k) /\ (forall p, p <> (new, k) -> p <> (old, k) -> slot s' p = slot s p) /\
      (forall c, c < s_ne s -> c <> e -> s_edges s' c = s_edges s c) /\ edim s' e = edim s e.
  Proof.
    intros W Ho He Ht Hne Hd Hdim. destruct (get_edge_slot W Ho) as (ed1 & G & E & Z). rewrite He in E. injection E as <-.
    pose proof (live_in_ends W Ho He) as I. pose proof Hd as (g & Hg & Eg).
    assert (exists s', redirect_edge e new old s = (s', Some tt) /\ same_nodes s s' /\ s_ne s' = S (s_ne s) /\ s_nn s' = s_nn s /\
      (forall p, slot s' p = if slot_eqb p (old, k) then Some (s_ne s) else if slot_eqb p (new, k) then Some e else slot s p) /\
      s_edges s' (s_ne s) = Some (Edge old k None false) /\
      (exists ed', s_edges s' e = Some ed' /\ e_dis ed' = false /\ ends ed' = map (move_end (old, k) (new, k)) (ends ed)) /\
      (forall c, c <> e -> c <> s_ne s -> s_edges s' c = s_edges s c)) as (s' & H & SN & Ene & Enn & Hsl & Hf & (ed' & He' & Hdis & Hends) & Hother).
    { assert (forall ed', e_dis ed' = false -> ends ed' = map (move_end (old, k) (new, k)) (ends ed) ->
        exists s', bind (set_edge e ed') (fun _ => bind (add_edge new e k true) (fun _ => bind (alloc_edge (Edge old k None false)) (fun f => add_edge old f k true))) s = (s', Some tt) /\ same_nodes s s' /\ s_ne s' = S (s_ne s) /\ s_nn s' = s_nn s /\
      (forall p, slot s' p = if slot_eqb p (old, k) then Some (s_ne s) else if slot_eqb p (new, k) then Some e else slot s p) /\
      s_edges s' (s_ne s) = Some (Edge old k None false) /\
      (exists ed', s_edges s' e = Some ed' /\ e_dis ed' = false /\ ends ed' = map (move_end (old, k) (new, k)) (ends ed)) /\
      (forall c, c <> e -> c <> s_ne s -> s_edges s' c = s_edges s c)) as Go.
      { intros ed' Hdis Hends. unfold bind at 1, set_edge at 1. set (s1 := St _ _ _ _).
        destruct (Nat.eq_dec g e) as [Hge|Hge]. { exfalso. subst g. pose proof (dangling_slot W Ho Eg eq_refl) as K. cbn in K. congruence. }
        destruct (@add_edge_ok R s1 new k e g (Edge new k None false)) as (s2 & A1); [intros nd Hn; apply (wf_rank W Hn)|exact Hg| |].
        { cbn. rewrite upd_other by assumption. exact Eg. }
        unfold bind at 1. rewrite A1. destruct (add_edge_slot A1) as (S1 & S2 & S3 & S4 & S5 & _).
        unfold bind at 1, alloc_edge at 1. set (s3 := St _ _ _ _).
        assert (slot s3 (old, k) = Some e) as Ho3. { change (slot s2 (old, k) = Some e). rewrite S5. destruct (slot_eqb_spec (old, k) (new, k)); [congruence|]. exact Ho. }
        assert (e < s_ne s) as Le by apply (slot_lt W Ho).
        assert (s_edges s3 e = Some ed') as He3. { cbn. rewrite S4. cbn. rewrite upd_other by lia. rewrite S2. cbn. apply upd_same. }
        destruct (@add_edge_ok R s3 old k (s_ne s2) e ed') as (s4 & A2); [|exact Ho3|exact He3|].
        { intros nd Hn. specialize (S1 old). change (s_nodes s2 old = Some nd) in Hn. rewrite Hn in S1. destruct (s_nodes s1 old) as [b|] eqn:Eb; [|contradiction].
          destruct S1 as (-> & _ & ->). apply (wf_rank W Eb). }
        destruct (add_edge_slot A2) as (T1 & T2 & T3 & T4 & T5 & _).
        exists s4. split; [exact A2|]. split; [apply (@same_nodes_trans R s s2 s4); [exact S1|exact T1]|].
        split; [rewrite T4; cbn; rewrite S4; reflexivity|]. split; [rewrite T3; cbn; rewrite S3; reflexivity|]. split.
        - intros p. rewrite T5. destruct (slot_eqb p (old, k)); [rewrite S4; reflexivity|]. change (slot s3 p) with (slot s2 p). rewrite S5. reflexivity.
        - split; [rewrite T2; cbn; rewrite S4; cbn; apply upd_same|]. split.
          + exists ed'. split; [rewrite T2; exact He3|]. auto.
          + intros c C1 C2. rewrite T2. cbn. rewrite S4. cbn. rewrite upd_other by assumption. rewrite S2. cbn. apply upd_other. assumption. }
      unfold redirect_edge. unfold bind at 1. rewrite G, Ht. cbn [negb].
      destruct ed as [n1 a1 e2 ds]. cbn [e_n1 e_a1 e_2 e_dis] in *. unfold ends in I. cbn [e_n1 e_a1 e_2] in I.
      destruct (Nat.eqb_spec n1 old) as [->|Hn1].
      - assert (a1 = k) as ->.
        { destruct I as [I|I]; [congruence|]. destruct e2 as [[n2 a2]|]; [|destruct I]. destruct I as [I|[]]. injection I as -> ->.
          exfalso. unfold is_trace_edge in Ht. cbn in Ht. rewrite Nat.eqb_refl in Ht. discriminate. }
        apply Go; [reflexivity|]. unfold ends. cbn [e_n1 e_a1 e_2 map]. unfold move_end at 1. destruct (slot_eqb_spec (old, k) (old, k)); [|congruence]. f_equal.
        destruct e2 as [[n2 a2]|]; [|reflexivity]. cbn. unfold move_end. destruct (slot_eqb_spec (n2, a2) (old, k)) as [K|]; [|reflexivity].
        injection K as -> _. exfalso. unfold is_trace_edge in Ht. cbn in Ht. rewrite Nat.eqb_refl in Ht. discriminate.
      - destruct I as [I|I]; [congruence|]. destruct e2 as [[n2 a2]|]; [|destruct I]. destruct I as [I|[]]. injection I as -> ->.
        unfold bind at 1. rewrite Nat.eqb_refl. cbn [guard]. unfold ret at 1. apply Go; [reflexivity|]. unfold ends. cbn. unfold move_end.
        destruct (slot_eqb_spec (n1, a1) (old, k)); [congruence|]. destruct (slot_eqb_spec (old, k) (old, k)); [|congruence]. reflexivity. }
    assert (wf s') as W'. { apply (@redirect_wf s s' e ed ed' old new k (s_ne s)); auto. }
    assert (slot s' (new, k) = Some e) as Hn'. { rewrite Hsl. destruct (slot_eqb_spec (new, k) (old, k)); [congruence|]. destruct (slot_eqb_spec (new, k) (new, k)); [reflexivity|congruence]. }
    exists s'. split; [exact H|]. split; [exact W'|]. split; [exact SN|]. split; [exact Hn'|]. split; [|split; [|split]].
    - exists (s_ne s). cbn. split; [rewrite Hsl; destruct (slot_eqb_spec (old, k) (old, k)); [reflexivity|congruence]|exact Hf].
    - intros p P1 P2. rewrite Hsl. destruct (slot_eqb_spec p (old, k)); [congruence|]. destruct (slot_eqb_spec p (new, k)); [congruence|]. reflexivity.
    - intros c C1 C2. apply Hother; [exact C2|lia].
    - assert (Some (edim s' e) = Some (edim s e)) as K; [|injection K; auto]. rewrite <- (edim_dimat W' Hn'), <- (edim_dimat W Ho), (same_nodes_dimat _ SN). exact Hdim.
  Qed.

  (** ** trace edges *)
  Theorem redirect_trace_law s e old new a1 a2 : wf s -> slot s (old, a1) = Some e -> s_edges s e = Some (Edge old a1 (Some (old, a2)) false) ->
    old <> new -> dangles s (new, a1) -> dangles s (new, a2) -> dimat s (new, a1) = dimat s (old, a1) -> dimat s (new, a2) = dimat s (old, a2) ->
    exists s' f, redirect_edge e new old s = (s', Some tt) /\ wf s' /\ same_nodes s s' /\
      slot s' (new, a1) = Some e /\ slot s' (new, a2) = Some e /\ s_edges s' e = Some (Edge new a1 (Some (new, a2)) false) /\
      slot s' (old, a1) = Some f /\ slot s' (old, a2) = Some f /\ s_edges s' f = Some (Edge old a1 (Some (old, a2)) false) /\ s_ne s <= f /\
      (forall p, p <> (new, a1) -> p <> (new, a2) -> p <> (old, a1) -> p <> (old, a2) -> slot s' p = slot s p) /\
      (forall c, c < s_ne s -> c <> e -> s_edges s' c = s_edges s c) /\ edim s' e = edim s e.
  Proof.
    intros W Ho He Hne (g1 & Hg1 & Eg1) (g2 & Hg2 & Eg2) D1 D2. cbn [fst snd] in *.
    destruct (wf_slot W Ho) as (ed0 & E0 & Z & _ & ND & K0). rewrite He in E0. injection E0 as <-. specialize (K0 (fun x => x)). unfold ends in ND, K0. cbn in ND, K0.
    assert (a1 <> a2) as Ha by (intros ->; inversion ND as [|? ? Q _]; apply Q; left; reflexivity).
    destruct (K0 (old, a2)) as [Ho2 Dd]; [auto|].
    assert (forall p, slot s p = Some g1 -> p = (new, a1)) as U1 by (intros p Hp; apply (dangling_slot W Hp Eg1 eq_refl)).
    assert (forall p, slot s p = Some g2 -> p = (new, a2)) as U2 by (intros p Hp; apply (dangling_slot W Hp Eg2 eq_refl)).
    assert (g1 <> e) as N1 by congruence. assert (g2 <> e) as N2 by congruence.
    assert (e < s_ne s) as Le by apply (slot_lt W Ho). assert (g2 < s_ne s) as Lg2 by apply (slot_lt W Hg2).
    assert (exists s', redirect_edge e new old s = (s', Some tt) /\ same_nodes s s' /\ s_ne s' = S (s_ne s) /\ s_nn s' = s_nn s /\
      (forall p, slot s' p = if slot_eqb p (old, a2) then Some (s_ne s) else if slot_eqb p (old, a1) then Some (s_ne s) else if slot_eqb p (new, a2) then Some e else if slot_eqb p (new, a1) then Some e else slot s p) /\
      s_edges s' = upd Nat.eq_dec (upd Nat.eq_dec (s_edges s) e (Some (Edge new a1 (Some (new, a2)) false))) (s_ne s) (Some (Edge old a1 (Some (old, a2)) false))) as (s' & H & SN & Ene & Enn & Hsl & Hed).
    { unfold redirect_edge. unfold bind at 1. destruct (get_edge_slot W Ho) as (ed1 & G & E & _). rewrite He in E. injection E as <-. rewrite G. unfold is_trace_edge at 1. cbn [e_n1 e_a1 e_2]. rewrite Nat.eqb_refl. cbn [negb].
      unfold bind at 1. cbn [guard]. unfold ret at 1. unfold bind at 1, set_edge at 1. set (s1 := St _ _ _ _).
      assert (forall t n nd, same_nodes s t -> s_nodes t n = Some nd -> length (n_edges nd) = rank (n_t nd)) as Rk.
      { intros t n nd SN Hn. specialize (SN n). rewrite Hn in SN. destruct (s_nodes s n) as [b|] eqn:Eb; [|contradiction]. destruct SN as (-> & _ & ->). apply (wf_rank W Eb). }
      destruct (@add_edge_ok R s1 new a1 e g1 (Edge new a1 None false)) as (s2 & A1); [intros nd Hn; apply (wf_rank W Hn)|exact Hg1|cbn; rewrite upd_other by assumption; exact Eg1|].
      destruct (add_edge_slot A1) as (S1 & S2 & S3 & S4 & S5 & _). unfold bind at 1. rewrite A1.
      destruct (@add_edge_ok R s2 new a2 e g2 (Edge new a2 None false)) as (s3 & A2); [intros nd Hn; apply (Rk s2 new nd S1 Hn)| | |].
      { rewrite S5. destruct (slot_eqb_spec (new, a2) (new, a1)); [congruence|exact Hg2]. }
      { rewrite S2. cbn. rewrite upd_other by assumption. exact Eg2. }
      destruct (add_edge_slot A2) as (T1 & T2 & T3 & T4 & T5 & _). unfold bind at 1. rewrite A2. unfold bind at 1, alloc_edge at 1. set (s4 := St _ _ _ _).
      assert (same_nodes s s3) as SN3 by (apply (@same_nodes_trans R s s2 s3); [exact S1|exact T1]).
      assert (forall p, slot s3 p = if slot_eqb p (new, a2) then Some e else if slot_eqb p (new, a1) then Some e else slot s p) as Sl3 by (intros p; rewrite T5, S5; reflexivity).
      assert (s_ne s3 = s_ne s) as Ne3 by (rewrite T4, S4; reflexivity).
      assert (s_edges s3 = upd Nat.eq_dec (s_edges s) e (Some (Edge new a1 (Some (new, a2)) false))) as Ed3 by (rewrite T2, S2; reflexivity).
      assert (s_edges s4 e = Some (Edge new a1 (Some (new, a2)) false)) as He4. { cbn. rewrite Ne3, Ed3. rewrite upd_other by lia. apply upd_same. }
      destruct (@add_edge_ok R s4 old a1 (s_ne s3) e (Edge new a1 (Some (new, a2)) false)) as (s5 & A3); [intros nd Hn; apply (Rk s3 old nd SN3 Hn)| |exact He4|].
      { change (slot s3 (old, a1) = Some e). rewrite Sl3. destruct (slot_eqb_spec (old, a1) (new, a2)); [congruence|]. destruct (slot_eqb_spec (old, a1) (new, a1)); [congruence|]. exact Ho. }
      destruct (add_edge_slot A3) as (V1 & V2 & V3 & V4 & V5 & _). unfold bind at 1. rewrite A3.
      assert (same_nodes s s5) as SN5 by (apply (@same_nodes_trans R s s3 s5); [exact SN3|exact V1]).
      destruct (@add_edge_ok R s5 old a2 (s_ne s3) e (Edge new a1 (Some (new, a2)) false)) as (s6 & A4); [intros nd Hn; apply (Rk s5 old nd SN5 Hn)| |rewrite V2; exact He4|].
      { rewrite V5. destruct (slot_eqb_spec (old, a2) (old, a1)); [congruence|]. change (slot s3 (old, a2) = Some e). rewrite Sl3.
        destruct (slot_eqb_spec (old, a2) (new, a2)); [congruence|]. destruct (slot_eqb_spec (old, a2) (new, a1)); [congruence|]. exact Ho2. }
      destruct (add_edge_slot A4) as (X1 & X2 & X3 & X4 & X5 & _). exists s6. split; [exact A4|]. split; [apply (@same_nodes_trans R s s5 s6); [exact SN5|exact X1]|].
      split; [rewrite X4, V4; cbn; rewrite Ne3; reflexivity|]. split; [rewrite X3, V3; cbn; rewrite T3, S3; reflexivity|]. split.
      - intros p. rewrite X5, V5. change (slot s4 p) with (slot s3 p). rewrite Sl3, Ne3. reflexivity.
      - rewrite X2, V2. cbn. rewrite Ed3, Ne3. reflexivity. }
    assert (s_edges s' e = Some (Edge new a1 (Some (new, a2)) false)) as He' by (rewrite Hed, upd_other by lia; apply upd_same).
    assert (s_edges s' (s_ne s) = Some (Edge old a1 (Some (old, a2)) false)) as Hf' by (rewrite Hed; apply upd_same).
    assert (forall c, c <> e -> c <> s_ne s -> s_edges s' c = s_edges s c) as Hother by (intros c C1 C2; rewrite Hed, !upd_other by assumption; reflexivity).
    assert (slot s' (new, a1) = Some e) as Sn1. { rewrite Hsl. destruct (slot_eqb_spec (new, a1) (old, a2)); [congruence|]. destruct (slot_eqb_spec (new, a1) (old, a1)); [congruence|]. destruct (slot_eqb_spec (new, a1) (new, a2)); [congruence|]. destruct (slot_eqb_spec (new, a1) (new, a1)); [reflexivity|congruence]. }
    assert (slot s' (new, a2) = Some e) as Sn2. { rewrite Hsl. destruct (slot_eqb_spec (new, a2) (old, a2)); [congruence|]. destruct (slot_eqb_spec (new, a2) (old, a1)); [congruence|]. destruct (slot_eqb_spec (new, a2) (new, a2)); [reflexivity|congruence]. }
    assert (slot s' (old, a2) = Some (s_ne s)) as So2. { rewrite Hsl. destruct (slot_eqb_spec (old, a2) (old, a2)); [reflexivity|congruence]. }
    assert (slot s' (old, a1) = Some (s_ne s)) as So1. { rewrite Hsl. destruct (slot_eqb_spec (old, a1) (old, a2)); [reflexivity|]. destruct (slot_eqb_spec (old, a1) (old, a1)); [reflexivity|congruence]. }
    assert (forall p, p <> (new, a1) -> p <> (new, a2) -> p <> (old, a1) -> p <> (old, a2) -> slot s' p = slot s p) as Sp.
    { intros p P1 P2 P3 P4. rewrite Hsl. destruct (slot_eqb_spec p (old, a2)); [congruence|]. destruct (slot_eqb_spec p (old, a1)); [congruence|]. destruct (slot_eqb_spec p (new, a2)); [congruence|]. destruct (slot_eqb_spec p (new, a1)); [congruence|reflexivity]. }
    assert (wf s') as W'.
    { destruct (same_nodes_wf_base SN W) as [B1 B2]; [lia|]. split; [exact B1|exact B2| |].
      { intros c d Hc. destruct (Nat.eq_dec c e) as [->|]; [lia|]. destruct (Nat.eq_dec c (s_ne s)) as [->|]; [lia|]. rewrite Hother in Hc by assumption. pose proof (wf_ne W Hc). lia. }
      assert (forall n f ed p, ed = Edge n a1 (Some (n, a2)) false -> s_edges s' f = Some ed -> slot s' (n, a1) = Some f -> slot s' (n, a2) = Some f -> dimat s (n, a1) = dimat s (n, a2) -> p = (n, a1) \/ p = (n, a2) ->
        exists ed, s_edges s' f = Some ed /\ e_dis ed = false /\ In p (ends ed) /\ NoDup (ends ed) /\ (~ False -> forall q, In q (ends ed) -> slot s' q = Some f /\ dimat s' q = dimat s' p)) as Loop.
      { intros n f ed p -> Hf A B D Hp. exists (Edge n a1 (Some (n, a2)) false). unfold ends. cbn. split; [exact Hf|]. split; [reflexivity|]. split; [destruct Hp as [->| ->]; auto|].
        split; [repeat constructor; cbn; [intros [K|[]]; congruence|intros []]|]. intros _ q Hq. rewrite !(same_nodes_dimat _ SN). destruct Hp as [->| ->], Hq as [<-|[<-|[]]]; split; congruence. }
      assert (forall p q : nid * nat, {p = q} + {p <> q}) as Pd by (intros p q; destruct (slot_eqb_spec p q); auto).
      intros p c Hp. destruct (Pd p (new, a1)) as [->|P1]; [|destruct (Pd p (new, a2)) as [->|P2]; [|destruct (Pd p (old, a1)) as [->|P3]; [|destruct (Pd p (old, a2)) as [->|P4]]]].
      - assert (c = e) as -> by congruence. apply (Loop new e _ _ eq_refl He' Sn1 Sn2); [congruence|auto].
      - assert (c = e) as -> by congruence. apply (Loop new e _ _ eq_refl He' Sn1 Sn2); [congruence|auto].
      - assert (c = s_ne s) as -> by congruence. apply (Loop old (s_ne s) _ _ eq_refl Hf' So1 So2); [congruence|auto].
      - assert (c = s_ne s) as -> by congruence. apply (Loop old (s_ne s) _ _ eq_refl Hf' So1 So2); [congruence|auto].
      - rewrite (Sp p P1 P2 P3 P4) in Hp. assert (c <> e) as Ce. { intros ->. pose proof (live_in_ends W Hp He) as K. unfold ends in K. cbn in K. destruct K as [K|[K|[]]]; congruence. }
        destruct (wf_slot W Hp) as (dc & Ec & Dc & Ic & Nc & Kc). assert (c < s_ne s) as Lc by apply (slot_lt W Hp). exists dc. split; [rewrite Hother by lia; exact Ec|]. split; [exact Dc|]. split; [exact Ic|]. split; [exact Nc|].
        intros _ q Hq. destruct (Kc (fun x => x) q Hq) as [Q1 Q2]. rewrite !(same_nodes_dimat _ SN). split; [|exact Q2].
        assert (c <> g1) as Cg1. { intros ->. apply P1, U1, Hp. } assert (c <> g2) as Cg2. { intros ->. apply P2, U2, Hp. }
        rewrite (Sp q); [exact Q1|intros ->; congruence..]. }
    exists s', (s_ne s). repeat (split; [solve [auto]|]). split; [intros c C1 C2; apply Hother; [exact C2|lia]|].
    assert (Some (edim s' e) = Some (edim s e)) as K; [|injection K; auto]. rewrite <- (edim_dimat W' Sn1), <- (edim_dimat W Ho), (same_nodes_dimat _ SN). exact D1.
  Qed.
  (** an edge that does not end at the old node: nothing happens *)
  Theorem redirect_reject s e ed old new : s_edges s e = Some ed -> (forall k, ~ In (old, k) (ends ed)) -> redirect_edge e new old s = (s, None).
  Proof.
    intros He Ho. unfold redirect_edge. unfold bind at 1, get_edge. rewrite He. destruct ed as [n1 a1 e2 ds]. unfold ends in Ho. cbn [e_n1 e_a1 e_2 e_dis] in *.
    destruct ds; [reflexivity|]. assert (n1 <> old) as H1 by (intros ->; apply (Ho a1); left; reflexivity). apply Nat.eqb_neq in H1. cbn [e_n1 e_a1 e_2 e_dis]. rewrite H1.
    destruct (negb _); cbv iota.
    - destruct e2 as [[n2 a2]|]; [|reflexivity]. assert (n2 <> old) as H2 by (intros ->; apply (Ho a2); right; left; reflexivity). apply Nat.eqb_neq in H2. rewrite H2. reflexivity.
    - destruct e2 as [[n2 a2]|]; reflexivity.
  Qed.
End GR.
