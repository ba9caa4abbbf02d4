(** * GraphSched: remove_node, histories, contraction schedules *)
From Verif Require Import Prelude Algebra Tensor TensorFacts Einsum EinsumFacts NetworkFacts Graph GraphBase GraphContract GraphOps GraphValue GraphOuter GraphConnect GraphJoin GraphBetween GraphRetail GraphFuse GraphFlatten GraphTrace GraphSplit GraphProg.
Set Implicit Arguments.
Unset Strict Implicit.

Lemma valid_map_asg_inv (L : Type) (dim a : L -> nat) ls x : valid (map a ls) (map dim ls) -> In x ls -> a x < dim x.
Proof.
  induction ls as [|y ls IH]; intros H Hx; [destruct Hx|]. cbn [map] in H. inversion H as [|? ? ? ? H1 H2].
  destruct Hx as [<-|Hx]; [exact H1|apply IH; assumption].
Qed.

Section GH.
  Context {R : csr}.
  Notation st := (@st R).
  Notation M := (@M R).
  Notation node := (@node R).
  Implicit Types (s : st) (e : eid).
  Notation cnt := (count_occ Nat.eq_dec).
  Add Ring Rring : (rsr R).

  Lemma edge_of_inv n ax s s' e : edge_of n ax s = (s', Some e) -> s' = s /\ slot s (n, ax) = Some e.
  Proof.
    intros H. unfold edge_of in H. apply bind_inv in H. destruct H as (nd & s1 & H1 & H). apply get_node_inv in H1. destruct H1 as [-> Hn].
    destruct (nth_error (n_edges nd) ax) as [e'|] eqn:E; [|discriminate]. injection H as <- <-. split; [reflexivity|]. apply (slot_intro Hn E).
  Qed.
  Lemma edges_of_inv ps s s' es : edges_of ps s = (s', Some es) -> s' = s /\ forall e, In e es -> exists p, slot s p = Some e.
  Proof.
    revert s' es. induction ps as [|[n a] ps IH]; intros s' es H; cbn [edges_of] in H.
    - injection H as <- <-. split; [reflexivity|intros e []].
    - apply bind_inv in H. destruct H as (e & s1 & H1 & H). apply edge_of_inv in H1. destruct H1 as [-> Hs]. cbn [fst snd] in Hs.
      apply bind_inv in H. destruct H as (r & s1 & H1 & H). apply IH in H1. destruct H1 as [-> Hr]. injection H as <- <-. split; [reflexivity|].
      intros x [<-|Hx]; [eauto|auto].
  Qed.
  Lemma at_port_inv A (p : port) (f : eid -> M A) s s' (r : A) : at_port p f s = (s', Some r) -> exists e, slot s p = Some e /\ f e s = (s', Some r).
  Proof.
    intros H. unfold at_port in H. apply bind_inv in H. destruct H as (e & s1 & H1 & H). apply edge_of_inv in H1. destruct H1 as [-> Hs].
    exists e. split; [destruct p; exact Hs|exact H].
  Qed.
  Lemma void_inv A (m : M A) s s' (x : unit) : void m s = (s', Some x) -> exists r, m s = (s', Some r).
  Proof. intros H. unfold void in H. apply bind_inv in H. destruct H as (r & s1 & H1 & H). injection H as <- <-. eauto. Qed.

  (** ** remove_node *)
  (** the edge at port p joins node n (at one of the axes i..i+k-1) to another node *)
  Definition crosses s (n : nid) (i k : nat) (p q : nid * nat) : Prop :=
    p <> q /\ exists c, slot s p = Some c /\ slot s q = Some c /\
      ((fst p = n /\ fst q <> n /\ i <= snd p < i + k) \/ (fst q = n /\ fst p <> n /\ i <= snd q < i + k)).

  Lemma crosses_sym s n i k p q : crosses s n i k p q -> crosses s n i k q p.
  Proof. intros (Hne & c & H1 & H2 & H). split; [auto|]. exists c. tauto. Qed.

  (** the two ends of a live edge *)
  Lemma slot_partner s p c ed : wf s -> slot s p = Some c -> s_edges s c = Some ed ->
    (e_2 ed = None /\ p = (e_n1 ed, e_a1 ed) /\ forall q, slot s q = Some c -> q = p) \/
    (exists q, p <> q /\ slot s q = Some c /\ Permutation (ends ed) [p; q] /\ forall r, slot s r = Some c -> r = p \/ r = q).
  Proof.
    intros W Hp He. pose proof (live_in_ends W Hp He) as Hin. pose proof (ends_live W Hp He) as L.
    destruct (wf_slot W Hp) as (ed' & K & _ & _ & Hnd & _). rewrite He in K. injection K as <-.
    pose proof (fun q Hq => live_in_ends (p := q) W Hq He) as L'.
    destruct ed as [n1 a1 [q2|] ds]; unfold ends in *; cbn [e_2 e_n1 e_a1] in *.
    - right. destruct Hin as [<-|[<-|[]]].
      + exists q2. split; [apply NoDup_cons_iff in Hnd; intros K; apply (proj1 Hnd); left; congruence|]. split; [apply L; cbn; auto|]. split; [reflexivity|].
        intros r Hr. apply L' in Hr. cbn in Hr. destruct Hr as [<-|[<-|[]]]; auto.
      + exists (n1, a1). split; [apply NoDup_cons_iff in Hnd; intros K; apply (proj1 Hnd); left; congruence|]. split; [apply L; cbn; auto|]. split; [apply perm_swap|].
        intros r Hr. apply L' in Hr. cbn in Hr. destruct Hr as [<-|[<-|[]]]; auto.
    - left. split; [reflexivity|]. destruct Hin as [<-|[]]. split; [reflexivity|]. intros q Hq. apply L' in Hq. cbn in Hq. destruct Hq as [<-|[]]. reflexivity.
  Qed.

  Definition dangles s p : Prop := exists f, slot s p = Some f /\ s_edges s f = Some (Edge (fst p) (snd p) None false).

  Record removed s s' (n : nid) (i k : nat) (l : list (nat * eid)) : Prop := {
    rm_wf : wf s';
    rm_same : same_nodes s s';
    rm_nn : s_nn s' = s_nn s;
    rm_ne : s_ne s <= s_ne s';
    rm_cut : forall p q, crosses s n i k p q -> dangles s' p;
    rm_keep : forall p c, slot s p = Some c -> (forall q, ~ crosses s n i k p q) -> slot s' p = Some c;
    rm_edges : forall c, c < s_ne s -> s_edges s' c = s_edges s c;
    rm_list : forall j f, In (j, f) l <-> exists q, crosses s n i k (n, j) q /\ slot s' q = Some f /\ fst q <> n;
    rm_sorted : forall j f, In (j, f) l -> i <= j < i + k
  }.

  Lemma remove_from_inv n k : forall i s s' l, wf s -> remove_node_from n i k s = (s', Some l) -> removed s s' n i k l.
  Proof.
    induction k as [|k IH]; intros i s s' l W H; cbn [remove_node_from] in H.
    - injection H as <- <-. split; auto using same_nodes_refl.
      + intros p q (_ & c & _ & _ & [K|K]); lia.
      + intros j f. split; [intros []|]. intros (q & (_ & c & _ & _ & [K|K]) & _); lia.
      + intros j f [].
    - apply bind_inv in H. destruct H as (e & s1 & H1 & H). apply edge_of_inv in H1. destruct H1 as [-> Hs].
      apply bind_inv in H. destruct H as (ed & s1 & H1 & H). apply get_edge_inv in H1. destruct H1 as (-> & He & Hdis).
      destruct (slot_partner W Hs He) as [(E2 & Ep & Uq)|(q0 & Hpq & Hq0 & Pe & Uq)].
      + (* dangling *)
        assert (is_dangling ed = true) as Ed by (unfold is_dangling; rewrite E2; reflexivity). rewrite Ed in H. cbn [negb andb] in H.
        apply IH in H; [|exact W]. 
        assert (forall p q, crosses s n i (S k) p q <-> crosses s n (S i) k p q) as Hc.
        { intros [pn pa] [qn qa]. unfold crosses. cbn [fst snd]. split; intros (N & c & S1 & S2 & K); (split; [exact N|]; exists c; split; [exact S1|]; split; [exact S2|]).
          - destruct K as [(-> & K2 & K3)|(-> & K2 & K3)]; [left|right]; (split; [reflexivity|]; split; [exact K2|]).
            + destruct (Nat.eq_dec pa i) as [->|]; [|lia]. exfalso. rewrite Hs in S1. injection S1 as <-. apply Uq in S2. congruence.
            + destruct (Nat.eq_dec qa i) as [->|]; [|lia]. exfalso. rewrite Hs in S2. injection S2 as <-. apply Uq in S1. congruence.
          - destruct K as [(-> & K2 & K3)|(-> & K2 & K3)]; [left|right]; (split; [reflexivity|]; split; [exact K2|lia]). }
        destruct H. split; auto.
        * intros p q K. apply Hc in K. eauto.
        * intros p c K1 K2. apply rm_keep0; [exact K1|]. intros q K. apply (K2 q). apply Hc. exact K.
        * intros j f. rewrite rm_list0. split; intros (q & K & K'); exists q; split; auto; apply Hc; exact K.
        * intros j f K. specialize (rm_sorted0 j f K). lia.
      + destruct (Nat.eq_dec (fst q0) n) as [En|En].
        * (* trace edge *)
          assert (is_trace_edge ed = true) as Et.
          { destruct ed as [n1 a1 [[n2 a2]|] ds]; unfold ends in Pe; cbn [e_n1 e_a1 e_2] in Pe.
            - unfold is_trace_edge. cbn [e_2 e_n1]. apply Nat.eqb_eq.
              assert (In (n1, a1) [(n, i); q0]) as K1 by (apply (Permutation_in _ Pe); cbn; auto).
              assert (In (n2, a2) [(n, i); q0]) as K2 by (apply (Permutation_in _ Pe); cbn; auto).
              destruct K1 as [K1|[K1|[]]], K2 as [K2|[K2|[]]]; try subst q0; cbn in En; congruence.
            - apply Permutation_length in Pe. discriminate. }
          rewrite Et, andb_false_r in H. apply IH in H; [|exact W].
          assert (forall p q, crosses s n i (S k) p q <-> crosses s n (S i) k p q) as Hc.
          { intros [pn pa] [qn qa]. unfold crosses. cbn [fst snd]. split; intros (N & c & S1 & S2 & K); (split; [exact N|]; exists c; split; [exact S1|]; split; [exact S2|]).
            - destruct K as [(-> & K2 & K3)|(-> & K2 & K3)]; [left|right]; (split; [reflexivity|]; split; [exact K2|]).
              + destruct (Nat.eq_dec pa i) as [->|]; [|lia]. exfalso. rewrite Hs in S1. injection S1 as <-. apply Uq in S2. destruct S2 as [S2|S2]; [congruence|]. subst q0. cbn in En. congruence.
              + destruct (Nat.eq_dec qa i) as [->|]; [|lia]. exfalso. rewrite Hs in S2. injection S2 as <-. apply Uq in S1. destruct S1 as [S1|S1]; [congruence|]. subst q0. cbn in En. congruence.
            - destruct K as [(-> & K2 & K3)|(-> & K2 & K3)]; [left|right]; (split; [reflexivity|]; split; [exact K2|lia]). }
          destruct H. split; auto.
          -- intros p q K. apply Hc in K. eauto.
          -- intros p c K1 K2. apply rm_keep0; [exact K1|]. intros q K. apply (K2 q). apply Hc. exact K.
          -- intros j f. rewrite rm_list0. split; intros (q & K & K'); exists q; split; auto; apply Hc; exact K.
          -- intros j f K. specialize (rm_sorted0 j f K). lia.
        * (* an edge to another node *)
          assert (is_dangling ed = false /\ is_trace_edge ed = false) as [Ed Et].
          { destruct ed as [n1 a1 [[n2 a2]|] ds]; unfold ends in Pe; cbn [e_n1 e_a1 e_2] in Pe.
            - split; [reflexivity|]. unfold is_trace_edge. cbn [e_2 e_n1]. apply Nat.eqb_neq.
              assert (In (n, i) [(n1, a1); (n2, a2)]) as K1 by (apply (Permutation_in _ (Permutation_sym Pe)); cbn; auto).
              assert (In q0 [(n1, a1); (n2, a2)]) as K2 by (apply (Permutation_in _ (Permutation_sym Pe)); cbn; auto).
              destruct K1 as [K1|[K1|[]]], K2 as [K2|[K2|[]]]; try subst q0; cbn in En; congruence.
            - apply Permutation_length in Pe. discriminate. }
          rewrite Ed, Et in H. cbn [negb andb] in H.
          apply bind_inv in H. destruct H as ([f1 f2] & s1 & H1 & H).
          apply bind_inv in H. destruct H as (fd & s1' & H2 & H). apply get_edge_inv in H2. destruct H2 as (-> & Hf & _). cbn [fst snd] in *.
          apply bind_inv in H. destruct H as (rest & s2 & H3 & H). injection H as <- <-.
          destruct (disconnect_inv W (ex_intro _ _ Hs) H1) as (p1 & p2 & D).
          pose proof (disconnect_wf W D) as W1. apply IH in H3; [|exact W1].
          destruct (dp_f D) as [Ef1 Ef2]. pose proof (dp_p D) as Hp12.
          assert ((p1 = (n, i) /\ p2 = q0) \/ (p1 = q0 /\ p2 = (n, i))) as Hp.
          { pose proof (dp_ed D) as K. rewrite He in K. injection K as K. rewrite K in Pe. unfold ends in Pe. cbn [e_n1 e_a1 e_2] in Pe.
            rewrite <- surjective_pairing in Pe.
            assert (In p1 [(n, i); q0]) as K1 by (apply (Permutation_in _ Pe); cbn; auto).
            assert (In p2 [(n, i); q0]) as K2 by (apply (Permutation_in _ Pe); cbn; auto).
            destruct K1 as [<-|[<-|[]]], K2 as [<-|[<-|[]]]; auto; contradiction. }
          set (d := if Nat.eqb (e_n1 fd) n then f2 else f1) in *.
          assert (slot s1 q0 = Some d /\ s_edges s1 d = Some (Edge (fst q0) (snd q0) None false)) as [Sd Dd].
          { unfold d. pose proof (dp_f1 D) as K. rewrite Hf in K. injection K as ->. cbn [e_n1]. rewrite (dp_slot D).
            destruct Hp as [[-> ->]|[-> ->]]; cbn [fst].
            - rewrite Nat.eqb_refl. split; [|apply (dp_f2 D)]. destruct (slot_eqb_spec q0 (n, i)); [congruence|]. destruct (slot_eqb_spec q0 q0); [reflexivity|congruence].
            - destruct (Nat.eqb_spec (fst q0) n); [contradiction|]. split; [|apply (dp_f1 D)]. destruct (slot_eqb_spec q0 q0); [reflexivity|congruence]. }
          assert (exists d', slot s1 (n, i) = Some d' /\ s_edges s1 d' = Some (Edge n i None false)) as (d' & Sd' & Dd').
          { rewrite (dp_slot D). destruct Hp as [[-> ->]|[-> ->]].
            - exists f1. destruct (slot_eqb_spec (n, i) (n, i)); [|congruence]. split; [reflexivity|apply (dp_f1 D)].
            - exists f2. destruct (slot_eqb_spec (n, i) q0); [congruence|]. destruct (slot_eqb_spec (n, i) (n, i)); [|congruence]. split; [reflexivity|apply (dp_f2 D)]. }
          assert (forall r, r <> (n, i) -> r <> q0 -> slot s1 r = slot s r) as Keep.
          { intros r R1 R2. rewrite (dp_slot D). destruct Hp as [[-> ->]|[-> ->]]; destruct (slot_eqb_spec r (n, i)), (slot_eqb_spec r q0); congruence. }
          assert (forall r, r <> (n, i) -> r <> q0 -> slot s r <> Some e) as Ne by (intros r R1 R2 K; destruct (Uq r K); contradiction).
          assert (forall r, slot s1 r = Some d -> r = q0) as Ud.
          { intros r K. destruct (slot_partner W1 Sd Dd) as [(_ & _ & U)|(q' & _ & _ & P' & _)]; [apply (U r K)|]. apply Permutation_length in P'. discriminate. }
          assert (forall r, slot s1 r = Some d' -> r = (n, i)) as Ud'.
          { intros r K. destruct (slot_partner W1 Sd' Dd') as [(_ & _ & U)|(q' & _ & _ & P' & _)]; [apply (U r K)|]. apply Permutation_length in P'. discriminate. }
          assert (forall p q, crosses s n i (S k) p q <-> crosses s1 n (S i) k p q \/ (p = (n, i) /\ q = q0) \/ (p = q0 /\ q = (n, i))) as Hc.
          { intros p q. split.
            - intros (N & c & S1 & S2 & K). destruct (Nat.eq_dec c e) as [->|Hce].
              + right. destruct (Uq p S1), (Uq q S2); subst; auto; contradiction.
              + left. split; [exact N|]. exists c.
                assert (p <> (n, i) /\ p <> q0) as [P1 P2] by (split; intros ->; congruence).
                assert (q <> (n, i) /\ q <> q0) as [Q1 Q2] by (split; intros ->; congruence).
                rewrite !Keep by auto. split; [exact S1|]. split; [exact S2|].
                destruct p as [pn pa], q as [qn qa]. cbn [fst snd] in *.
                destruct K as [(-> & K2 & K3)|(-> & K2 & K3)]; [left|right]; (split; [reflexivity|]; split; [exact K2|]).
                * destruct (Nat.eq_dec pa i); [congruence|lia].
                * destruct (Nat.eq_dec qa i); [congruence|lia].
            - intros [(N & c & S1 & S2 & K)|[[-> ->]|[-> ->]]].
              + split; [exact N|]. exists c.
                assert (c <> d) as Cd by (intros ->; apply Ud in S1, S2; congruence).
                assert (c <> d') as Cd' by (intros ->; apply Ud' in S1, S2; congruence).
                assert (p <> (n, i) /\ p <> q0) as [P1 P2] by (split; intros ->; congruence).
                assert (q <> (n, i) /\ q <> q0) as [Q1 Q2] by (split; intros ->; congruence).
                rewrite Keep in S1, S2 by auto. split; [exact S1|]. split; [exact S2|].
                destruct K as [(K1 & K2 & K3)|(K1 & K2 & K3)]; [left|right]; (split; [exact K1|]; split; [exact K2|lia]).
              + split; [auto|]. exists e. split; [exact Hs|]. split; [exact Hq0|]. left. cbn. split; [reflexivity|]. split; [exact En|lia].
              + split; [auto|]. exists e. split; [exact Hq0|]. split; [exact Hs|]. right. cbn. split; [reflexivity|]. split; [exact En|lia]. }
          assert (forall q, ~ crosses s1 n (S i) k (n, i) q) as Nn0.
          { intros q (N & c & S1 & S2 & K). rewrite Sd' in S1. injection S1 as <-. apply Ud' in S2. congruence. }
          assert (forall q, ~ crosses s1 n (S i) k q0 q) as Nq0.
          { intros q (N & c & S1 & S2 & K). rewrite Sd in S1. injection S1 as <-. apply Ud in S2. congruence. }
          pose proof (dp_ne D) as Ned. pose proof (slot_lt W1 Sd) as [_ Ld]. pose proof (slot_lt W1 Sd') as [_ Ld'].
          destruct H3. split.
          -- exact rm_wf0.
          -- apply (same_nodes_trans (dp_same D) rm_same0).
          -- rewrite rm_nn0. apply (dp_nn D).
          -- lia.
          -- intros p q K. apply Hc in K. destruct K as [K|[[-> ->]|[-> ->]]].
             ++ eauto.
             ++ exists d'. split; [apply rm_keep0; assumption|]. rewrite rm_edges0 by exact Ld'. exact Dd'.
             ++ exists d. split; [apply rm_keep0; assumption|]. rewrite rm_edges0 by exact Ld. exact Dd.
          -- intros p c K1 K2. apply rm_keep0.
             ++ rewrite Keep; [exact K1| |]; intros ->.
                ** apply (K2 q0). apply Hc. auto.
                ** apply (K2 (n, i)). apply Hc. auto.
             ++ intros q K. apply (K2 q). apply Hc. auto.
          -- intros c Hcl. rewrite rm_edges0 by lia. apply (dp_edges D); lia.
          -- intros j f. cbn [In]. rewrite rm_list0. split.
             ++ intros [K|(q & K & K')].
                ** injection K as <- <-. exists q0. split; [apply Hc; auto|]. split; [apply rm_keep0; assumption|exact En].
                ** exists q. split; [apply Hc; auto|exact K'].
             ++ intros (q & K & K1 & K2). apply Hc in K. destruct K as [K|[[K ->]|[K ->]]].
                ** right. exists q. auto.
                ** left. injection K as ->. rewrite (rm_keep0 _ _ Sd Nq0) in K1. congruence.
                ** cbn in K2. contradiction.
          -- intros j f [K|K]; [injection K as <- <-; lia|]. specialize (rm_sorted0 j f K). lia.
  Qed.

  Lemma remove_node_inv n s s' l : wf s -> remove_node n s = (s', Some l) ->
    exists nd, s_nodes s n = Some nd /\ removed s s' n 0 (length (n_names nd)) l.
  Proof.
    intros W H. unfold remove_node in H. apply bind_inv in H. destruct H as (nd & s1 & H1 & H). apply get_node_inv in H1. destruct H1 as [-> Hn].
    exists nd. split; [exact Hn|]. apply (remove_from_inv W H).
  Qed.

  (** ** outer_product of a node with itself succeeds for scalars only *)
  Lemma update_axis_end e o n s s' (x : unit) : update_axis e o n s = (s', Some x) -> exists ed, s_edges s e = Some ed /\ In o (ends ed).
  Proof.
    intros H. unfold update_axis in H. apply bind_inv in H. destruct H as (ed & s1 & H1 & H). apply get_edge_inv in H1. destruct H1 as (-> & He & _).
    exists ed. split; [exact He|]. unfold ends. destruct o as [on oa]. cbn [fst snd] in H.
    destruct (Nat.eqb_spec (e_a1 ed) oa) as [A|A], (Nat.eqb_spec (e_n1 ed) on) as [B|B]; cbn [andb] in H; [left; congruence| | |];
      (destruct (e_2 ed) as [[n2 a2]|]; [|discriminate H]; destruct (Nat.eqb_spec a2 oa) as [C|C], (Nat.eqb_spec n2 on) as [D|D]; cbn [andb] in H; try discriminate H; right; left; congruence).
  Qed.
  Lemma app1_gone ed (o n : nid * nat) : NoDup (ends ed) -> n <> o -> ~ In o (ends (app1 ed o n)).
  Proof.
    intros Hnd Hne. unfold app1. destruct ed as [n1 a1 [q|] ds]; unfold ends in *; cbn [e_n1 e_a1 e_2] in *.
    - destruct (slot_eqb_spec (n1, a1) o) as [<-|N1].
      + cbn. rewrite <- surjective_pairing. apply NoDup_cons_iff in Hnd. intros [K|[K|[]]]; [congruence|]. apply (proj1 Hnd). left. exact K.
      + destruct (slot_eqb_spec q o) as [<-|N2]; cbn; intros [K|[K|[]]]; congruence.
    - destruct (slot_eqb_spec (n1, a1) o) as [<-|N1]; cbn; [rewrite <- surjective_pairing|]; intros [K|[]]; congruence.
  Qed.
  Lemma app1_not ed (o n x : nid * nat) : ~ In x (ends ed) -> n <> x -> ~ In x (ends (app1 ed o n)).
  Proof.
    intros Hx Hne. unfold app1. destruct ed as [n1 a1 [q|] ds]; unfold ends in *; cbn [e_n1 e_a1 e_2 In] in *.
    - destruct (slot_eqb_spec (n1, a1) o); [|destruct (slot_eqb_spec q o)]; cbn; try rewrite <- surjective_pairing; tauto.
    - destruct (slot_eqb_spec (n1, a1) o); cbn; try rewrite <- surjective_pairing; tauto.
  Qed.
  Lemma move_all_not e x old new i off es : forall s s' (u : unit) ed, fst x <> new -> s_edges s e = Some ed -> ~ In x (ends ed) ->
    move_all old new i off es s = (s', Some u) -> exists ed', s_edges s' e = Some ed' /\ ~ In x (ends ed').
  Proof.
    revert i. induction es as [|c es IH]; intros i s s' u ed Hx He Hn H; cbn [move_all] in H.
    - injection H as <- <-. eauto.
    - apply bind_inv in H. destruct H as (u1 & s1 & H1 & H). apply update_axis_inv in H1. destruct H1 as (ed1 & E1 & _ & ->).
      destruct (Nat.eq_dec c e) as [->|Hc].
      + rewrite He in E1. injection E1 as <-. eapply (IH (S i)); [exact Hx| | |exact H].
        * cbn. apply upd_same.
        * apply app1_not; [exact Hn|]. intros K. subst x. cbn in Hx. congruence.
      + eapply (IH (S i)); [exact Hx| |exact Hn|exact H]. cbn. rewrite upd_other; auto.
  Qed.
  Lemma outer_self n names s s' N : wf s -> outer_product n n names s = (s', Some N) -> wf s' /\ exists nd, s_nodes s n = Some nd /\ n_edges nd = [].
  Proof.
    intros W H. unfold outer_product in H.
    apply bind_inv in H. destruct H as (d1 & s1 & H1 & H). apply get_node_inv in H1. destruct H1 as [-> Hn].
    apply bind_inv in H. destruct H as (d2 & s1 & H1 & H). apply get_node_inv in H1. destruct H1 as [-> Hn2].
    rewrite Hn in Hn2. injection Hn2 as <-.
    apply bind_inv in H. destruct H as (N' & s1 & Hnew & H).
    destruct (new_node_wf W Hnew) as (W1 & Hlon & EN & Hnone & Hnn & (nms & Hlen & _ & _ & HN) & Hold & Hed & _).
    assert (N' <> n) as HNn by (intros ->; congruence).
    destruct (n_edges d1) as [|e es] eqn:Ees.
    - cbn [move_all app add_all] in H. apply bind_inv in H. destruct H as (u1 & s2 & H1 & H). injection H1 as <- <-.
      apply bind_inv in H. destruct H as (u1 & s2 & H1 & H). injection H1 as <- <-.
      apply bind_inv in H. destruct H as (u1 & s2 & H1 & H). injection H1 as <- <-.
      assert (s_nodes s1 n = Some d1) as Hn1 by (rewrite Hold; auto).
      apply bind_inv in H. destruct H as (u1 & s2 & H1 & H). apply (fresh_edges_inv Hn1) in H1. destruct H1 as (A1 & A2 & A3 & A4). rewrite Ees in *. cbn [length seq] in *.
      apply bind_inv in H. destruct H as (u2 & s3 & H1 & H).
      assert (s_nodes s2 n = Some (Node (n_t d1) [] (n_names d1))) as Hn2 by (rewrite A1, Nat.eqb_refl; reflexivity).
      apply (fresh_edges_inv Hn2) in H1. destruct H1 as (B1 & B2 & B3 & B4). cbn [n_edges length seq n_t n_names] in *. injection H as <- <-.
      split; [|exists d1; auto].
      assert (forall m, s_nodes s3 m = s_nodes s1 m) as Nod.
      { intros m. rewrite B1, A1. destruct (Nat.eqb_spec m n) as [->|]; [|reflexivity]. rewrite Hn1. destruct d1 as [t ees nm]. cbn in *. congruence. }
      assert (forall c, s_edges s3 c = s_edges s1 c) as Edg.
      { intros c. rewrite B4, A4, A3. destruct (Nat.leb_spec (s_ne s1 + 0) c), (Nat.ltb_spec c (s_ne s1 + 0 + 0)), (Nat.leb_spec (s_ne s1) c), (Nat.ltb_spec c (s_ne s1 + 0)); cbn [andb]; try reflexivity; lia. }
      assert (forall p, slot s3 p = slot s1 p) as Sl by (intros p; unfold slot; rewrite Nod; reflexivity).
      assert (forall p, dimat s3 p = dimat s1 p) as Dl by (intros p; unfold dimat; rewrite Nod; reflexivity).
      split.
      + intros m nd K. rewrite Nod in K. apply (wf_rank W1 K).
      + intros m nd K. rewrite Nod in K. pose proof (wf_nn W1 K). lia.
      + intros c ed K. rewrite Edg in K. pose proof (wf_ne W1 K). lia.
      + intros p c K. rewrite Sl in K. destruct (wf_slot W1 K) as (ed & E1 & E2 & E3 & E4 & E5). exists ed. rewrite Edg. split; [exact E1|]. split; [exact E2|]. split; [exact E3|]. split; [exact E4|].
        intros HX q Hq. rewrite Sl, !Dl. apply (E5 HX q Hq).
    - exfalso. cbn [move_all] in H.
      apply bind_inv in H. destruct H as (u1 & s2 & H1 & H).
      apply bind_inv in H1. destruct H1 as (u2 & s3 & H2 & H1). apply update_axis_inv in H2. destruct H2 as (ed & E1 & _ & ->).
      assert (slot s1 (n, 0) = Some e) as Hs by (unfold slot; cbn [fst snd]; rewrite Hold, Hn, Ees by auto; reflexivity).
      destruct (wf_slot W1 Hs) as (ed' & K & _ & _ & Hnd & _). rewrite E1 in K. injection K as <-.
      assert (exists ed2, s_edges s2 e = Some ed2 /\ ~ In (n, 0) (ends ed2)) as (ed2 & E2 & Nin).
      { eapply (@move_all_not e (n, 0) n N' 1 0 es); [cbn; auto| | |exact H1].
        - cbn. apply upd_same.
        - apply app1_gone; [exact Hnd|]. intros K. injection K as K. contradiction. }
      apply bind_inv in H. destruct H as (u3 & s4 & H3 & _). apply bind_inv in H3. destruct H3 as (u4 & s5 & H3 & _).
        apply update_axis_end in H3. destruct H3 as (ed3 & E3 & Hin). rewrite E2 in E3. injection E3 as <-. contradiction.
  Qed.

  (** ** Histories *)
  Section Iter.
  Variable iter : list nat -> list nat.
  Hypothesis iter_perm : forall l, Permutation (iter l) l.

  Lemma parallel_step e s s' N : wf s -> (exists p, slot s p = Some e) -> contract_parallel iter e s = (s', Some N) ->
    exists ed q, s_edges s e = Some ed /\ e_2 ed = Some q /\ contracted s s' (nodup Nat.eq_dec [e_n1 ed; fst q]) N /\
      exists nd', s_nodes s' N = Some nd' /\ n_edges nd' = flat_map (fun n => match s_nodes s n with Some nd => kept_of (shared_list s (e_n1 ed) (fst q)) (n_edges nd) | None => [] end) (nodup Nat.eq_dec [e_n1 ed; fst q]).
  Proof.
    intros W Hl H. unfold contract_parallel in H. apply bind_inv in H. destruct H as (ed & s1 & H1 & H). apply get_edge_inv in H1. destruct H1 as (-> & He & _).
    destruct (e_2 ed) as [[n2 a2]|] eqn:E2; [|discriminate]. exists ed, (n2, a2). split; [exact He|]. split; [exact E2|]. cbn [fst].
    destruct (between_any iter_perm W H) as (C & nd' & K1 & K2 & K3). split; [exact C|]. exists nd'. split; [exact K1|]. cbn zeta in K3. apply K3. reflexivity.
  Qed.

  Theorem exec_op_wf o s s' (x : unit) : wf s -> exec_op iter o s = (s', Some x) -> wf s'.
  Proof.
    intros W H. destruct o; cbn [exec_op] in H; try (apply void_inv in H; destruct H as (r & H)).
    - apply (new_node_wf W H).
    - apply at_port_inv in H. destruct H as (e & S1 & H). apply at_port_inv in H. destruct H as (f & S2 & H).
      destruct (connect_inv W (ex_intro _ _ S1) (ex_intro _ _ S2) H) as (p1 & p2 & C). apply (connect_wf W C).
    - apply at_port_inv in H. destruct H as (e & S1 & H). destruct r as [f1 f2].
      destruct (disconnect_inv W (ex_intro _ _ S1) H) as (p1 & p2 & C). apply (disconnect_wf W C).
    - apply at_port_inv in H. destruct H as (e & S1 & H).
      destruct (contract_step W (ex_intro _ _ S1) H) as (ed & q & _ & _ & C & _). apply (ct_wf C).
    - destruct (between_any iter_perm W H) as (C & _). apply (ct_wf C).
    - apply at_port_inv in H. destruct H as (e & S1 & H).
      destruct (parallel_step W (ex_intro _ _ S1) H) as (ed & q & _ & _ & C & _). apply (ct_wf C).
    - destruct (Nat.eq_dec n1 n2) as [<-|Hne]; [apply (outer_self W H)|]. destruct (outer_step W Hne H) as (C & _). apply (ct_wf C).
    - apply bind_inv in H. destruct H as (es & s1 & H1 & H). apply edges_of_inv in H1. destruct H1 as [-> Hl].
      destruct (flatten_edges_post iter_perm W Hl H) as [[_ ->]|(P & mult & F & _)]; [exact W|apply (fl_wf F)].
    - apply at_port_inv in H. destruct H as (e & S1 & H).
      destruct (split_edge_post iter_perm W (ex_intro _ _ S1) H) as (_ & [(_ & -> & _)|(P & mult & F & _)]); [exact W|apply (sp_wf F)].
    - destruct (reorder_axes_inv H) as (nd & Hn & Hp & Hr). apply (reorder_wf W (@wf_live_at _ s n W) Hn Hp Hr).
    - apply bind_inv in H. destruct H as (es & s1 & H1 & H). apply edges_of_inv in H1. destruct H1 as [-> Hl].
      destruct (reorder_edges_inv H) as (nd & Hn & Hp & _ & Hr). apply (reorder_wf W (@wf_live_at _ s n W) Hn Hp Hr).
    - destruct (remove_node_inv W H) as (nd & _ & Rm). apply (rm_wf Rm).
  Qed.
  Theorem exec_ops_wf l : forall s s' (x : unit), wf s -> exec_ops iter l s = (s', Some x) -> wf s'.
  Proof.
    induction l as [|o l IH]; intros s s' x W H; cbn [exec_ops] in H; [injection H as <- _; exact W|].
    apply bind_inv in H. destruct H as (u & s1 & H1 & H). apply (IH s1 s' x); [apply (exec_op_wf W H1)|exact H].
  Qed.

  (** ** Schedules *)
  Lemma nodup_filter_perm (olds S : list nat) : NoDup S -> incl olds S ->
    Permutation S (nodup Nat.eq_dec olds ++ filter (fun n => negb (mem n olds)) S).
  Proof.
    intros HS Hi. apply NoDup_Permutation.
    - exact HS.
    - apply NoDup_app_iff. split; [apply NoDup_nodup|]. split; [apply NoDup_filter; exact HS|].
      intros x Hx K. apply filter_In in K. destruct K as [_ K]. apply negb_true_iff, mem_nIn in K. apply nodup_In in Hx. contradiction.
    - intros x. rewrite in_app_iff, nodup_In, filter_In. split.
      + intros Hx. destruct (in_dec Nat.eq_dec x olds); [auto|]. right. split; [exact Hx|]. apply negb_true_iff, mem_nIn. assumption.
      + intros [Hx|[Hx _]]; auto.
  Qed.

  Lemma exec_cop_contracted c s s' olds N : wf s -> exec_cop iter c s = (s', Some (olds, N)) -> contracted s s' (nodup Nat.eq_dec olds) N.
  Proof.
    intros W H. destruct c; cbn [exec_cop] in H.
    - apply at_port_inv in H. destruct H as (e & S1 & H). apply bind_inv in H. destruct H as (l & s1 & H1 & H).
      unfold edge_nodes in H1. apply bind_inv in H1. destruct H1 as (ed & s2 & H1 & H2). apply get_edge_inv in H1. destruct H1 as (-> & He & _). injection H2 as <- <-.
      apply bind_inv in H. destruct H as (N' & s2 & H1 & H). injection H as <- <- <-.
      destruct (contract_step W (ex_intro _ _ S1) H1) as (ed' & q & K1 & K2 & C & _). rewrite He in K1. injection K1 as <-. rewrite K2. exact C.
    - apply bind_inv in H. destruct H as (N' & s2 & H1 & H). injection H as <- <- <-. destruct (between_any iter_perm W H1) as (C & _). exact C.
    - apply at_port_inv in H. destruct H as (e & S1 & H). apply bind_inv in H. destruct H as (l & s1 & H1 & H).
      unfold edge_nodes in H1. apply bind_inv in H1. destruct H1 as (ed & s2 & H1 & H2). apply get_edge_inv in H1. destruct H1 as (-> & He & _). injection H2 as <- <-.
      apply bind_inv in H. destruct H as (N' & s2 & H1 & H). injection H as <- <- <-.
      destruct (parallel_step W (ex_intro _ _ S1) H1) as (ed' & q & K1 & K2 & C & _). rewrite He in K1. injection K1 as <-. rewrite K2. exact C.
    - apply bind_inv in H. destruct H as (u & s1 & H1 & H). apply guard_inv in H1. destruct H1 as [Hne ->]. apply negb_true_iff, Nat.eqb_neq in Hne.
      apply bind_inv in H. destruct H as (N' & s2 & H1 & H). injection H as <- <- <-. destruct (outer_step W Hne H1) as (C & _).
      assert (nodup Nat.eq_dec [n1; n2] = [n1; n2]) as ->; [|exact C]. apply nodup_fixed_point. repeat constructor; [intros [K|[]]; congruence|intros []].
  Qed.

  (** a network: a set of existing nodes *)
  Definition network s (S : list nid) : Prop := NoDup S /\ forall n, In n S -> s_nodes s n <> None.

  Theorem schedule_inv l : forall S s s' S', wf s -> network s S -> schedule iter l S s = (s', Some S') ->
    wf s' /\ network s' S' /\ incl (net_labels (net_of s' S')) (net_labels (net_of s S)) /\
    (forall x, cnt (net_labels (net_of s' S')) x = 1 <-> cnt (net_labels (net_of s S)) x = 1) /\
    (forall x, In x (net_labels (net_of s' S')) -> edim s' x = edim s x) /\
    (forall a, open_ok s S a -> netval s S a = netval s' S' a).
  Proof.
    induction l as [|c l IH]; intros S s s' S' W HS H; cbn [schedule] in H.
    - injection H as <- <-. split; [exact W|]. split; [exact HS|]. split; [apply incl_refl|]. split; [reflexivity|]. split; auto.
    - apply bind_inv in H. destruct H as ([olds N] & s1 & H1 & H). apply bind_inv in H. destruct H as (u & s2 & H2 & H). apply guard_inv in H2. destruct H2 as [Hin ->]. cbn [fst snd] in *.
      pose proof (exec_cop_contracted W H1) as C. set (rest := filter (fun n => negb (mem n olds)) S) in *.
      destruct HS as [ND Hex].
      assert (incl olds S) as Hi by (intros n Hn; rewrite forallb_forall in Hin; apply mem_In; apply Hin; exact Hn).
      pose proof (nodup_filter_perm ND Hi) as P. fold rest in P.
      assert (NoDup (nodup Nat.eq_dec olds ++ rest)) as ND2 by (apply (Permutation_NoDup P ND)).
      assert (~ In N rest) as NN.
      { intros K. apply filter_In in K. destruct K as [K _]. apply (Hex N K). apply (ct_new C). }
      assert (network s1 (N :: rest)) as HS1.
      { split.
        - constructor; [exact NN|]. apply NoDup_filter. exact ND.
        - intros n [<-|Hn]; [destruct (ct_node C) as (nd & ->); discriminate|].
          assert (n <> N) as HnN by (intros ->; contradiction). apply filter_In in Hn. destruct Hn as [Hn1 Hn2]. apply negb_true_iff, mem_nIn in Hn2.
          rewrite (ct_others C); [apply (Hex n Hn1)| |exact HnN]. rewrite nodup_In. exact Hn2. }
      destruct (IH (N :: rest) s1 s' S' (ct_wf C) HS1 H) as (W' & HS' & I' & L' & D' & V').
      destruct (contracted_open W C ND2 NN) as [O1 O2].
      pose proof (net_of_perm s P) as PL.
      assert (incl (net_labels (net_of s1 (N :: rest))) (net_labels (net_of s S))) as I1.
      { intros x Hx. apply (Permutation_in _ (Permutation_sym PL)). change (N :: rest) with ([N] ++ rest) in Hx. rewrite net_of_app, net_labels_app in *.
        apply in_or_app. apply in_app_or in Hx. destruct Hx as [Hx|Hx].
        - left. destruct (ct_perm C) as (cut & Pc). apply (Permutation_in _ (Permutation_sym Pc)). apply in_or_app; right. apply in_or_app; right. exact Hx.
        - right. rewrite (@net_of_ext _ s s1) in Hx; [exact Hx|]. intros m Hm. apply (ct_others C); [|intros ->; contradiction].
          intros K. apply NoDup_app_iff in ND2. destruct ND2 as (_ & _ & Q). apply (Q m K Hm). }
      split; [exact W'|]. split; [exact HS'|]. split; [intros x Hx; apply I1, I', Hx|]. split; [|split].
      + intros x. rewrite L', O1. rewrite (@cnt_perm _ Nat.eq_dec _ _ x PL). reflexivity.
      + intros x Hx. rewrite D' by exact Hx. apply O2. apply I'. exact Hx.
      + intros a Ha. rewrite (netval_perm s a P). pose proof (open_ok_perm P Ha) as Ha2.
        rewrite (ct_value C ND2 NN Ha2). apply V'. apply (contracted_open_ok a W C ND2 NN). exact Ha2.
  Qed.

  Lemma netval_single s N nd a : s_nodes s N = Some nd -> NoDup (n_edges nd) -> netval s [N] a = elt (n_t nd) (map a (n_edges nd)).
  Proof.
    intros Hn ND. unfold netval, value, einsum. cbn [net_of map]. rewrite (fac_node Hn). rewrite net_labels_cons. cbn [snd net_labels flat_map]. rewrite app_nil_r.
    assert (repeated Nat.eq_dec (n_edges nd) = []) as ->.
    { destruct (repeated Nat.eq_dec (n_edges nd)) as [|x l] eqn:E; [reflexivity|]. exfalso.
      assert (In x (repeated Nat.eq_dec (n_edges nd))) as K by (rewrite E; left; reflexivity).
      apply In_repeated in K. rewrite (NoDup_count_occ Nat.eq_dec) in ND. specialize (ND x). lia. }
    cbn [esum]. rewrite netprod_cons. unfold fval. cbn [fst snd]. unfold netprod. cbn. ring.
  Qed.

  Theorem schedule_value l S s s' N nd a : wf s -> network s S -> schedule iter l S s = (s', Some [N]) ->
    s_nodes s' N = Some nd -> NoDup (n_edges nd) -> open_ok s S a ->
    elt (n_t nd) (map a (n_edges nd)) = netval s S a /\
    shape (n_t nd) = map (edim s) (n_edges nd) /\
    (forall x, In x (n_edges nd) <-> cnt (net_labels (net_of s S)) x = 1).
  Proof.
    intros W HS H Hn ND Ha. destruct (schedule_inv W HS H) as (W' & HS' & I' & L' & D' & V').
    assert (net_labels (net_of s' [N]) = n_edges nd) as El.
    { cbn [net_of map]. rewrite (fac_node Hn), net_labels_cons. cbn [snd net_labels flat_map]. apply app_nil_r. }
    rewrite El in *. split; [|split].
    - rewrite <- (netval_single a Hn ND). symmetry. apply V'. exact Ha.
    - pose proof (wf_fits W' Hn) as Ft. unfold fits in Ft. cbn [fst snd] in Ft. rewrite Ft. apply map_ext_in. exact D'.
    - intros x. rewrite <- L'. split.
      + intros Hx. rewrite (NoDup_count_occ' Nat.eq_dec) in ND. apply ND. exact Hx.
      + intros Hx. apply (count_occ_In Nat.eq_dec). lia.
  Qed.

  Theorem schedule_agree l1 l2 S s s1 s2 N1 N2 d1 d2 : wf s -> network s S ->
    schedule iter l1 S s = (s1, Some [N1]) -> schedule iter l2 S s = (s2, Some [N2]) ->
    s_nodes s1 N1 = Some d1 -> s_nodes s2 N2 = Some d2 -> NoDup (n_edges d1) -> NoDup (n_edges d2) ->
    Permutation (n_edges d1) (n_edges d2) /\
    forall a, valid (map a (n_edges d1)) (shape (n_t d1)) ->
      elt (n_t d1) (map a (n_edges d1)) = elt (n_t d2) (map a (n_edges d2)).
  Proof.
    intros W HS H1 H2 Hn1 Hn2 ND1 ND2.
    destruct (schedule_inv W HS H1) as (W1 & _ & _ & L1 & D1 & _). destruct (schedule_inv W HS H2) as (W2 & _ & _ & L2 & D2 & _).
    assert (forall s' N nd, s_nodes s' N = Some nd -> net_labels (net_of s' [N]) = n_edges nd) as El.
    { intros s' N nd Hn. cbn [net_of map]. rewrite (fac_node Hn), net_labels_cons. cbn [snd net_labels flat_map]. apply app_nil_r. }
    rewrite (El _ _ _ Hn1) in *. rewrite (El _ _ _ Hn2) in *.
    assert (forall l x, NoDup l -> (In x l <-> cnt l x = 1)) as Hc.
    { intros l x NDl. split; [|intros K; apply (count_occ_In Nat.eq_dec); lia]. intros Hx. rewrite (NoDup_count_occ' Nat.eq_dec) in NDl. apply NDl. exact Hx. }
    split.
    - apply NoDup_Permutation; auto. intros x. rewrite (Hc _ x ND1), (Hc _ x ND2), L1, L2. reflexivity.
    - intros a Ha.
      assert (open_ok s S a) as Ho.
      { intros x Hx. apply L1 in Hx. apply (Hc _ x ND1) in Hx. rewrite <- (D1 x Hx).
        pose proof (wf_fits W1 Hn1) as Ft. unfold fits in Ft. cbn [fst snd] in Ft. rewrite Ft in Ha. apply valid_map_asg_inv with (x := x) in Ha; assumption. }
      destruct (schedule_value W HS H1 Hn1 ND1 Ho) as [-> _]. destruct (schedule_value W HS H2 Hn2 ND2 Ho) as [-> _]. reflexivity.
  Qed.
  End Iter.
End GH.
