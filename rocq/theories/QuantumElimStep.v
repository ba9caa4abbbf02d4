(** * QuantumElimStep: taking one identity out of a network *)

From Verif Require Import Prelude Algebra Tensor TensorFacts Einsum EinsumFacts NetworkFacts Graph GraphBase GraphContract GraphOps GraphValue GraphConnect GraphJoin GraphSched GraphQuery GraphQueryFacts GraphLaws GraphCopy GraphCopyFacts GraphDensity NetIso CopyTensor MpsState Quantum QuantumSpec QuantumFacts QuantumUnion QuantumMake QuantumIdent QuantumElim.
Set Implicit Arguments.
Unset Strict Implicit.

Section Step.
  Context {R : cjr}.
  Notation st := (@st R).
  Add Ring Rqe : (rsr R).
  Implicit Types (s : st) (e f g : eid) (n m : nid) (p q r : nid * nat).
  Notation upd := (upd Nat.eq_dec).

  (** the edge [e] between [p] and [q] is replaced by the dangling edges [f] at [p] and [g] at [q] *)
  Record cut s s1 p q e f g : Prop := {
    ct_wf : wf s1;
    ct_same : same_nodes s s1;
    ct_nn : s_nn s1 = s_nn s;
    ct_ne : s_ne s1 = S (S (s_ne s));
    ct_f : s_ne s <= f < s_ne s1;
    ct_g : s_ne s <= g < s_ne s1;
    ct_fg : f <> g;
    ct_slot : forall r, slot s1 r = if slot_eqb r p then Some f else if slot_eqb r q then Some g else slot s r;
    ct_ef : s_edges s1 f = Some (Edge (fst p) (snd p) None false);
    ct_eg : s_edges s1 g = Some (Edge (fst q) (snd q) None false);
    ct_old : forall x, x < s_ne s -> s_edges s1 x = s_edges s x;
    ct_val : forall ns a, NoDup ns -> In (fst p) ns -> In (fst q) ns -> netval s ns a = nsum (edim s e) (fun i => netval s1 ns (upd (upd a f i) g i))
  }.

  Lemma cut_ok s p q e ed : wf s -> slot s p = Some e -> slot s q = Some e -> p <> q -> s_edges s e = Some ed ->
    exists s1 f1 f2 fd f g, disconnect e s = (s1, Some (f1, f2)) /\ get_edge f1 s1 = (s1, Some fd) /\
      (fst p <> fst q -> (if Nat.eqb (e_n1 fd) (fst q) then f2 else f1) = f) /\ cut s s1 p q e f g.
  Proof.
    intros W Hp Hq Hpq He.
    assert (e_2 ed <> None) as Hd. { intros K. apply Hpq. rewrite (dangling_slot W Hp He K), (dangling_slot W Hq He K). reflexivity. }
    destruct (disconnect_effect W Hp He Hd) as (s1 & f1 & f2 & _ & _ & D & _).
    destruct (disconnect_inv W (ex_intro _ _ Hp) D) as (p1 & p2 & C). pose proof (disconnect_wf W C) as W1. destruct (dp_f C) as [F1 F2]. pose proof (dp_ne C) as Hne.
    assert (forall r, slot s r = Some e -> r = p1 \/ r = p2) as U.
    { intros r Hr. pose proof (live_in_ends W Hr (dp_ed C)) as K. unfold ends in K. cbn in K. destruct K as [K|[K|[]]]; [left|right]; [destruct p1|]; cbn in *; congruence. }
    assert (forall x, x < s_ne s -> s_edges s1 x = s_edges s x) as Hold by (intros x Hx; apply (dp_edges C); lia).
    exists s1, f1, f2, (Edge (fst p1) (snd p1) None false).
    assert (get_edge f1 s1 = (s1, Some (Edge (fst p1) (snd p1) None false))) as G by (unfold get_edge; rewrite (dp_f1 C); reflexivity).
    destruct (U p Hp) as [->| ->], (U q Hq) as [->| ->]; try congruence.
    - exists f1, f2. split; [exact D|]. split; [exact G|]. split.
      { intros N. cbn. destruct (Nat.eqb_spec (fst p1) (fst p2)); [contradiction|reflexivity]. }
      split; auto; try lia.
      + apply (dp_same C). + apply (dp_nn C). + apply (dp_slot C). + apply (dp_f1 C). + apply (dp_f2 C).
      + intros ns a HN I1 I2. apply (disconnect_value a W C HN I1 I2).
    - exists f2, f1. split; [exact D|]. split; [exact G|]. split.
      { intros N. cbn. rewrite Nat.eqb_refl. reflexivity. }
      split; auto; try lia.
      + apply (dp_same C). + apply (dp_nn C).
      + intros r. rewrite (dp_slot C). destruct (slot_eqb_spec r p1) as [->|]; [|reflexivity]. destruct (slot_eqb_spec p1 p2); [congruence|reflexivity].
      + apply (dp_f2 C). + apply (dp_f1 C).
      + intros ns a HN I1 I2. rewrite (disconnect_value a W C HN I2 I1). apply nsum_ext. intros i _. apply netval_ext_asg. intros x _. unfold Prelude.upd.
        destruct (Nat.eq_dec x f1), (Nat.eq_dec x f2); congruence.
  Qed.

  Lemma get_edge_ok s e ed : s_edges s e = Some ed -> e_dis ed = false -> get_edge e s = (s, Some ed).
  Proof. intros H D. unfold get_edge. rewrite H, D. reflexivity. Qed.

  Lemma remove_cut s n i p e : wf s -> slot s (n, i) = Some e -> slot s p = Some e -> fst p <> n ->
    exists s1 f g, cut s s1 p (n, i) e f g /\
      forall k, remove_node_from n i (S k) s = bind (remove_node_from n (S i) k) (fun rest => ret ((i, f) :: rest)) s1.
  Proof.
    intros W Hn Hp Hne. destruct (wf_slot W Hn) as (ed & He & Hd & _).
    assert (p <> (n, i)) as Hpq by (intros ->; apply Hne; reflexivity).
    destruct (cut_ok W Hp Hn Hpq He) as (s1 & f1 & f2 & fd & f & g & H1 & H2 & H3 & C). exists s1, f, g. split; [exact C|]. intros k.
    destruct (kinds W (ex_intro _ i Hn) He) as [(E2 & _ & _ & U & _)|(m & a2 & E2 & _)].
    { exfalso. apply Hne. apply U. exists (snd p). rewrite <- surjective_pairing. exact Hp. }
    assert (is_dangling ed = false) as Ed by (unfold is_dangling; rewrite E2; reflexivity).
    assert (is_trace_edge ed = false) as Et.
    { unfold is_trace_edge. rewrite E2. apply Nat.eqb_neq. intros K; subst m.
      pose proof (live_in_ends W Hn He) as K1. pose proof (live_in_ends W Hp He) as K2. unfold ends in K1, K2. rewrite E2 in K1, K2. cbn in K1, K2.
      destruct K1 as [K1|[K1|[]]], K2 as [K2|[K2|[]]]; apply Hne; rewrite <- K2; cbn; congruence. }
    cbn [remove_node_from]. unfold bind at 1. rewrite (edge_of_slot Hn). unfold bind at 1. rewrite (get_edge_ok He Hd). rewrite Ed, Et. cbn [negb andb].
    unfold bind at 1. rewrite H1. cbn [fst snd]. unfold bind at 1. rewrite H2. cbn [fst] in H3. rewrite (H3 Hne). reflexivity.
  Qed.

  Lemma remove_skip s n i e ed k : slot s (n, i) = Some e -> s_edges s e = Some ed -> e_dis ed = false -> is_dangling ed = true \/ is_trace_edge ed = true ->
    remove_node_from n i (S k) s = remove_node_from n (S i) k s.
  Proof.
    intros Hn He Hd Hk. cbn [remove_node_from]. unfold bind at 1. rewrite (edge_of_slot Hn). unfold bind at 1. rewrite (get_edge_ok He Hd).
    destruct Hk as [-> | ->]; [|rewrite andb_false_r]; reflexivity.
  Qed.

  (** facts about a cut *)
  Section Cut.
    Variables (s s1 : st) (p q : nid * nat) (e f g : eid).
    Hypothesis C : cut s s1 p q e f g.
    Hypothesis W : wf s.
    Hypothesis Hpq : p <> q.
    Hypothesis Hp : slot s p = Some e.
    Hypothesis Hq : slot s q = Some e.
    Lemma cut_p : slot s1 p = Some f.
    Proof. rewrite (ct_slot C). destruct (slot_eqb_spec p p); congruence. Qed.
    Lemma cut_q : slot s1 q = Some g.
    Proof. rewrite (ct_slot C). destruct (slot_eqb_spec q p); [congruence|]. destruct (slot_eqb_spec q q); congruence. Qed.
    Lemma cut_other r : r <> p -> r <> q -> slot s1 r = slot s r.
    Proof. intros N1 N2. rewrite (ct_slot C). destruct (slot_eqb_spec r p); [congruence|]. destruct (slot_eqb_spec r q); congruence. Qed.
    Lemma cut_edim_f : edim s1 f = edim s e.
    Proof. pose proof (edim_dimat (ct_wf C) cut_p) as D. rewrite (same_nodes_dimat p (ct_same C)), (edim_dimat W Hp) in D. congruence. Qed.
    Lemma cut_uf r : slot s1 r = Some f -> r = p.
    Proof. intros H. pose proof (dangling_slot (ct_wf C) H (ct_ef C) eq_refl) as K. cbn in K. rewrite <- surjective_pairing in K. exact K. Qed.
    Lemma cut_ug r : slot s1 r = Some g -> r = q.
    Proof. intros H. pose proof (dangling_slot (ct_wf C) H (ct_eg C) eq_refl) as K. cbn in K. rewrite <- surjective_pairing in K. exact K. Qed.
    (** an old slot that still holds an old edge *)
    Lemma cut_old r x : slot s1 r = Some x -> x < s_ne s -> r <> p /\ r <> q /\ slot s r = Some x.
    Proof.
      intros H L. rewrite (ct_slot C) in H. pose proof (ct_f C). pose proof (ct_g C).
      destruct (slot_eqb_spec r p); [injection H as <-; lia|]. destruct (slot_eqb_spec r q); [injection H as <-; lia|]. auto.
    Qed.
    Lemma cut_edim r x : slot s1 r = Some x -> slot s r = Some x -> edim s1 x = edim s x.
    Proof. intros H1 H2. pose proof (edim_dimat (ct_wf C) H1) as D. rewrite (same_nodes_dimat r (ct_same C)), (edim_dimat W H2) in D. congruence. Qed.
  End Cut.

  (** ** the three cases *)
  Definition one_at (nd : @node R) (d : nat) : Prop :=
    length (n_names nd) = 2 /\ shape (n_t nd) = [d; d] /\ forall i j, i < d -> j < d -> elt (n_t nd) [i; j] = if Nat.eqb i j then r1 else r0.

  (** the sum over the legs of an identity that is connected to nothing *)
  Lemma netval_alone s n nd rest b : wf s -> s_nodes s n = Some nd -> NoDup (n_edges nd) -> (forall m e, In m rest -> In e (n_edges nd) -> ~ on s m e) ->
    netval s (n :: rest) b = elt (n_t nd) (map b (n_edges nd)) *! netval s rest b.
  Proof.
    intros W Hn HN Hs. change (n :: rest) with ([n] ++ rest). rewrite netval_app.
    - rewrite (netval_single b Hn HN). reflexivity.
    - intros m m' e [<-|[]] Hm' Ho. apply (Hs m' e Hm'). apply (on_In e Hn). exact Ho.
  Qed.
  Lemma nodes_edges2 s s' n nd : same_nodes s s' -> s_nodes s n = Some nd -> length (n_edges nd) = 2 ->
    forall x y, slot s' (n, 0) = Some x -> slot s' (n, 1) = Some y -> exists nd', s_nodes s' n = Some nd' /\ n_edges nd' = [x; y] /\ n_t nd' = n_t nd /\ n_names nd' = n_names nd.
  Proof.
    intros Sm Hn HL x y Hx Hy. specialize (Sm n). rewrite Hn in Sm. destruct (s_nodes s' n) as [nd'|] eqn:En; [|contradiction]. destruct Sm as (E1 & E2 & E3).
    exists nd'. split; [reflexivity|]. split; [|auto]. unfold slot in Hx, Hy. cbn in Hx, Hy. rewrite En in Hx, Hy. rewrite HL in E3.
    destruct (n_edges nd') as [|x' [|y' [|]]]; try discriminate. cbn in Hx, Hy. congruence.
  Qed.

  (** an identity between two other slots: they are joined instead *)
  Record spliced s s' n p0 p1 g : Prop := {
    sp_wf : wf s';
    sp_same : same_nodes s s';
    sp_nn : s_nn s' = s_nn s;
    sp_ne : s_ne s <= s_ne s';
    sp_g : s_ne s <= g;
    sp_p0 : slot s' p0 = Some g;
    sp_p1 : slot s' p1 = Some g;
    sp_ug : forall r, slot s' r = Some g -> r = p0 \/ r = p1;
    sp_slot : forall r, fst r <> n -> r <> p0 -> r <> p1 -> slot s' r = slot s r;
    sp_old : forall x, x < s_ne s -> s_edges s' x = s_edges s x;
    sp_n : forall k, k < 2 -> exists x, slot s' (n, k) = Some x /\ s_ne s <= x /\ s_edges s' x = Some (Edge n k None false);
    sp_val : forall rest a, NoDup (n :: rest) -> In (fst p0) rest -> In (fst p1) rest -> netval s (n :: rest) a = netval s' rest a
  }.

  Lemma splice_ok s n nd d e0 e1 p0 p1 D : wf s -> s_nodes s n = Some nd -> one_at nd d -> n_edges nd = [e0; e1] ->
    slot s p0 = Some e0 -> slot s p1 = Some e1 -> fst p0 <> n -> fst p1 <> n ->
    exists s' g, drop_node n e0 e1 d D s = (s', Some D) /\ spliced s s' n p0 p1 g.
  Proof.
    intros W Hn (Hnm & Hsh & Hel) Hes Hp0 Hp1 N0 N1.
    assert (slot s (n, 0) = Some e0) as S0 by (unfold slot; cbn; rewrite Hn, Hes; reflexivity).
    assert (slot s (n, 1) = Some e1) as S1 by (unfold slot; cbn; rewrite Hn, Hes; reflexivity).
    assert (e0 <> e1) as Hee.
    { intros <-. destruct (wf_slot W S0) as (ed & He & _). destruct (slot_partner W Hp0 He) as [(_ & _ & U)|(r & _ & _ & _ & U)].
      - apply N0. rewrite <- (U _ S0). reflexivity.
      - destruct (U _ S0) as [<-|<-]; [apply N0; reflexivity|]. destruct (U _ S1) as [<-|K]; [apply N0; reflexivity|discriminate K]. }
    assert (p0 <> p1) as Hpp by congruence.
    assert (p0 <> (n, 0) /\ p0 <> (n, 1) /\ p1 <> (n, 0) /\ p1 <> (n, 1)) as (Q1 & Q2 & Q3 & Q4) by (repeat split; intros ->; cbn in *; congruence).
    destruct (remove_cut W S0 Hp0 N0) as (s1 & f0 & g0 & C1 & E1). pose proof (ct_wf C1) as W1.
    assert (slot s1 (n, 1) = Some e1) as S1' by (rewrite (cut_other C1); [exact S1|congruence|congruence]).
    assert (slot s1 p1 = Some e1) as Hp1' by (rewrite (cut_other C1); [exact Hp1|congruence|congruence]).
    destruct (remove_cut W1 S1' Hp1' N1) as (s2 & f1 & g1 & C2 & E2). pose proof (ct_wf C2) as W2.
    pose proof (cut_p C1) as F0. pose proof (cut_q C1 Q1) as G0. pose proof (cut_p C2) as F1. pose proof (cut_q C2 Q4) as G1.
    assert (slot s2 p0 = Some f0) as F0' by (rewrite (cut_other C2); [exact F0|congruence|congruence]).
    assert (slot s2 (n, 0) = Some g0) as G0' by (rewrite (cut_other C2); [exact G0|congruence|congruence]).
    pose proof (ct_f C1) as Bf0. pose proof (ct_g C1) as Bg0. pose proof (ct_f C2) as Bf1. pose proof (ct_g C2) as Bg1. pose proof (ct_ne C1) as M1. pose proof (ct_ne C2) as M2.
    assert (s_edges s2 f0 = Some (Edge (fst p0) (snd p0) None false)) as Ef0 by (rewrite (ct_old C2) by lia; apply (ct_ef C1)).
    assert (s_edges s2 g0 = Some (Edge n 0 None false)) as Eg0 by (rewrite (ct_old C2) by lia; apply (ct_eg C1)).
    assert (edim s e0 = d) as D0.
    { pose proof (edim_dimat W S0) as K. unfold dimat in K. cbn in K. rewrite Hn, Hsh in K. cbn in K. congruence. }
    assert (edim s e1 = d) as D1.
    { pose proof (edim_dimat W S1) as K. unfold dimat in K. cbn in K. rewrite Hn, Hsh in K. cbn in K. congruence. }
    assert (edim s1 e1 = d) as D1' by (rewrite (cut_edim C1 W S1' S1); exact D1).
    assert (edim s2 f0 = d) as Df0.
    { rewrite (cut_edim C2 W1 F0' F0). rewrite (cut_edim_f C1 W Hp0). exact D0. }
    assert (edim s2 f1 = d) as Df1 by (rewrite (cut_edim_f C2 W1 Hp1'); exact D1').
    destruct (proj2 (@connect_total _ s2 p0 p1 f0 f1 _ _ W2 F0' F1 Ef0 (ct_ef C2))) as (s3 & g & H3).
    { cbn. split; [reflexivity|]. split; [reflexivity|]. split; [exact Hpp|]. rewrite (edim_dimat W2 F0'), (edim_dimat W2 F1). congruence. }
    destruct (connect_inv W2 (ex_intro _ _ F0') (ex_intro _ _ F1) H3) as (p0' & p1' & P).
    assert (p0' = p0) as -> by (pose proof (dangling_slot W2 (cp_p1 P) Ef0 eq_refl) as K; cbn in K; rewrite <- surjective_pairing in K; exact K).
    assert (p1' = p1) as -> by (pose proof (dangling_slot W2 (cp_p2 P) (ct_ef C2) eq_refl) as K; cbn in K; rewrite <- surjective_pairing in K; exact K).
    pose proof (connect_wf W2 P) as W3. pose proof (cp_e P) as Eg. pose proof (cp_ne P) as M3.
    exists s3, g. split.
    { unfold drop_node, remove_node. unfold bind at 1. unfold bind at 1. unfold get_node. rewrite Hn, Hnm. rewrite E1. unfold bind at 1. rewrite E2. cbn [remove_node_from].
      unfold bind at 1. cbn [ret]. unfold ret at 1. cbn. unfold bind. rewrite H3. reflexivity. }
    pose proof (same_nodes_trans (ct_same C1) (ct_same C2)) as Sm2.
    split.
    - exact W3.
    - apply (same_nodes_trans Sm2 (cp_same P)).
    - rewrite (cp_nn P), (ct_nn C2), (ct_nn C1). reflexivity.
    - lia.
    - lia.
    - rewrite (cp_slot P). destruct (slot_eqb_spec p0 p0); [reflexivity|congruence].
    - rewrite (cp_slot P). destruct (slot_eqb_spec p1 p1); [rewrite orb_true_r; reflexivity|congruence].
    - intros r Hr. rewrite (cp_slot P) in Hr. destruct (slot_eqb_spec r p0); [auto|]. destruct (slot_eqb_spec r p1); [auto|]. cbn in Hr. destruct (slot_lt W2 Hr). lia.
    - intros r Hr R0 R1. rewrite (cp_slot P). destruct (slot_eqb_spec r p0); [congruence|]. destruct (slot_eqb_spec r p1); [congruence|]. cbn.
      assert (r <> (n, 0) /\ r <> (n, 1)) as [] by (split; intros ->; apply Hr; reflexivity). rewrite (cut_other C2), (cut_other C1); congruence.
    - intros x Hx. rewrite (cp_edges P), (ct_old C2), (ct_old C1); try lia. reflexivity.
    - intros k Hk. assert (k = 0 \/ k = 1) as [-> | ->] by lia.
      + exists g0. rewrite (cp_slot P), (cp_edges P) by lia. destruct (slot_eqb_spec (n, 0) p0); [congruence|]. destruct (slot_eqb_spec (n, 0) p1); [congruence|]. cbn. split; [exact G0'|]. split; [lia|exact Eg0].
      + exists g1. rewrite (cp_slot P), (cp_edges P) by lia. destruct (slot_eqb_spec (n, 1) p0); [congruence|]. destruct (slot_eqb_spec (n, 1) p1); [congruence|]. cbn. split; [exact G1|]. split; [lia|apply (ct_eg C2)].
    - intros rest a HN I0 I1. pose proof HN as HN'. apply NoDup_cons_iff in HN'. destruct HN' as [Hnr HNr].
      rewrite (connect_value a W2 P HNr I0 I1), Df0.
      rewrite (ct_val C1 a HN (or_intror I0)) by (left; reflexivity). rewrite D0.
      assert (length (n_edges nd) = 2) as HL by (rewrite Hes; reflexivity).
      destruct (nodes_edges2 Sm2 Hn HL G0' G1) as (nd2 & Hn2 & Hes2 & Ht2 & _).
      assert (forall m x, In m rest -> In x [g0; g1] -> ~ on s2 m x) as Hout.
      { intros m x Hm Hx (k & Hk). apply Hnr. destruct Hx as [<-|[<-|[]]].
        - pose proof (dangling_slot W2 Hk Eg0 eq_refl) as K. cbn in K. injection K as -> _. exact Hm.
        - pose proof (cut_ug C2 Hk) as K. injection K as -> _. exact Hm. }
      apply nsum_ext. intros i Hi. rewrite (ct_val C2 _ HN (or_intror I1)) by (left; reflexivity). rewrite D1'.
      rewrite <- (nsum_delta_l (fun j => netval s2 rest (upd (upd a f0 i) f1 j)) Hi). apply nsum_ext. intros j Hj.
      rewrite (netval_alone _ W2 Hn2); [|rewrite Hes2; repeat constructor; cbn; intuition lia|rewrite Hes2; exact Hout]. rewrite Hes2, Ht2. cbn [map].
      match goal with |- elt _ [?x; ?y] *! _ = _ => assert (x = i) as -> by (unfold Prelude.upd; repeat (destruct (Nat.eq_dec _ _); try lia)); assert (y = j) as -> by (unfold Prelude.upd; repeat (destruct (Nat.eq_dec _ _); try lia)) end.
      rewrite (Hel i j Hi Hj). f_equal. apply netval_ext_asg. intros x Hx.
      assert (In x (net_labels (net_of s2 rest))) as Hx' by (apply (count_occ_In Nat.eq_dec); lia).
      apply In_net_labels in Hx'. destruct Hx' as (m & Hm & Ho).
      assert (x <> g0) by (intros ->; apply (Hout m g0 Hm); [left; reflexivity|exact Ho]). assert (x <> g1) by (intros ->; apply (Hout m g1 Hm); [right; left; reflexivity|exact Ho]).
      unfold Prelude.upd. repeat (destruct (Nat.eq_dec _ _); try congruence); lia.
  Qed.

  (** an identity with one loose leg: the leg of the neighbour becomes loose instead *)
  Lemma trim_ok s n nd d e0 e1 k p x y D : wf s -> s_nodes s n = Some nd -> one_at nd d -> n_edges nd = [e0; e1] -> k < 2 ->
    slot s (n, k) = Some x -> s_edges s x = Some (Edge n k None false) -> slot s (n, 1 - k) = Some y -> slot s p = Some y -> fst p <> n ->
    exists s' f g, drop_node n e0 e1 d D s = (s', Some (fst D, (x, f) :: snd D)) /\ cut s s' p (n, 1 - k) y f g /\
      forall rest a, NoDup (n :: rest) -> In (fst p) rest -> a x < edim s x -> netval s (n :: rest) a = netval s' rest (upd a f (a x)).
  Proof.
    intros W Hn (Hnm & Hsh & Hel) Hes Hk Hx Ex Hy Hp Np.
    assert (slot s (n, 0) = Some e0) as S0 by (unfold slot; cbn; rewrite Hn, Hes; reflexivity).
    assert (slot s (n, 1) = Some e1) as S1 by (unfold slot; cbn; rewrite Hn, Hes; reflexivity).
    destruct (remove_cut W Hy Hp Np) as (s1 & f & g & C & E). pose proof (ct_wf C) as W1. exists s1, f, g.
    assert (p <> (n, 1 - k) /\ p <> (n, k)) as [Q1 Q2] by (split; intros ->; apply Np; reflexivity).
    assert ((n, k) <> (n, 1 - k)) as Q3 by (assert (k = 0 \/ k = 1) as [-> | ->] by lia; discriminate).
    assert (slot s1 (n, k) = Some x) as Hx1 by (rewrite (cut_other C); [exact Hx|congruence|exact Q3]).
    pose proof (slot_lt W Hx) as [_ Lx].
    assert (s_edges s1 x = Some (Edge n k None false)) as Ex1 by (rewrite (ct_old C) by exact Lx; exact Ex).
    pose proof (cut_q C Q1) as G1. pose proof (ct_f C) as Bf. pose proof (ct_g C) as Bg. pose proof (ct_fg C) as Hfg.
    split; [|split; [exact C|]].
    - assert (k = 0 \/ k = 1) as [-> | ->] by lia; cbn [Nat.sub] in *.
      + assert (x = e0) as -> by congruence. unfold drop_node, remove_node. unfold bind at 1. unfold bind at 1. unfold get_node. rewrite Hn, Hnm.
        rewrite (remove_skip 1 Hx Ex) by (cbn; auto). rewrite E. cbn [remove_node_from]. unfold bind. cbn. reflexivity.
      + assert (x = e1) as -> by congruence. unfold drop_node, remove_node. unfold bind at 1. unfold bind at 1. unfold get_node. rewrite Hn, Hnm.
        rewrite E. unfold bind at 1. rewrite (remove_skip 0 Hx1 Ex1) by (cbn; auto). cbn [remove_node_from]. unfold ret. cbn. reflexivity.
    - intros rest a HN I0 Ha. pose proof HN as HN'. apply NoDup_cons_iff in HN'. destruct HN' as [Hnr HNr].
      rewrite (ct_val C a HN (or_intror I0)) by (left; reflexivity).
      assert (length (n_edges nd) = 2) as HL by (rewrite Hes; reflexivity).
      assert (edim s x = d) as Dx.
      { pose proof (edim_dimat W Hx) as K. unfold dimat in K. cbn in K. rewrite Hn, Hsh in K. assert (k = 0 \/ k = 1) as [-> | ->] by lia; cbn in K; congruence. }
      assert (edim s y = d) as Dy.
      { pose proof (edim_dimat W Hy) as K. unfold dimat in K. cbn [fst snd] in K. rewrite Hn, Hsh in K. assert (k = 0 \/ k = 1) as [-> | ->] by lia; cbn in K; congruence. }
      rewrite Dy. rewrite Dx in Ha.
      assert (exists nd2 l, s_nodes s1 n = Some nd2 /\ n_edges nd2 = l /\ n_t nd2 = n_t nd /\ l = (if Nat.eqb k 0 then [x; g] else [g; x])) as (nd2 & l & Hn2 & Hl & Ht2 & El).
      { assert (k = 0 \/ k = 1) as [-> | ->] by lia; cbn [Nat.sub Nat.eqb] in *.
        - destruct (nodes_edges2 (ct_same C) Hn HL Hx1 G1) as (nd2 & K1 & K2 & K3 & _). eauto 6.
        - destruct (nodes_edges2 (ct_same C) Hn HL G1 Hx1) as (nd2 & K1 & K2 & K3 & _). eauto 6. }
      assert (x <> g) as Hxg by lia.
      assert (NoDup l) as NDl by (rewrite El; destruct (Nat.eqb k 0); repeat constructor; cbn; intuition congruence).
      assert (forall m z, In m rest -> In z l -> ~ on s1 m z) as Hout.
      { intros m z Hm Hz (j & Hj). apply Hnr. assert (z = x \/ z = g) as [-> | ->] by (rewrite El in Hz; destruct (Nat.eqb k 0); cbn in Hz; intuition).
        - pose proof (dangling_slot W1 Hj Ex1 eq_refl) as K. cbn in K. injection K as -> _. exact Hm.
        - pose proof (cut_ug C Hj) as K. injection K as -> _. exact Hm. }
      rewrite <- (nsum_delta_l (fun i => netval s1 rest (upd a f i)) Ha). apply nsum_ext. intros i Hi.
      rewrite (netval_alone _ W1 Hn2); [|rewrite Hl; exact NDl|rewrite Hl; exact Hout]. rewrite Hl, Ht2. f_equal.
      + set (b := upd (upd a f i) g i). assert (b x = a x) as Bx by (unfold b, Prelude.upd; repeat (destruct (Nat.eq_dec _ _); try lia)).
        assert (b g = i) as Bgi by (unfold b, Prelude.upd; repeat (destruct (Nat.eq_dec _ _); try lia)).
        rewrite El. destruct (Nat.eqb k 0); cbn [map]; rewrite Bx, Bgi, Hel by assumption; [reflexivity|]. rewrite Nat.eqb_sym. reflexivity.
      + apply netval_ext_asg. intros z Hz.
        assert (In z (net_labels (net_of s1 rest))) as Hz' by (apply (count_occ_In Nat.eq_dec); lia).
        apply In_net_labels in Hz'. destruct Hz' as (m & Hm & Ho).
        assert (z <> g) by (intros ->; apply (Hout m g Hm); [rewrite El; destruct (Nat.eqb k 0); cbn; auto|exact Ho]).
        unfold Prelude.upd. repeat (destruct (Nat.eq_dec _ _); try congruence).
  Qed.

  (** the trace of an identity: a new node with the dimension *)
  Lemma trace_of_one_ok s n nd d e D : wf s -> s_nodes s n = Some nd -> one_at nd d -> n_edges nd = [e; e] ->
    exists s' N, drop_node n e e d D s = (s', Some ((n, N) :: fst D, snd D)) /\ leaf s s' (Tensor [] (fun _ => nsum d (fun _ => r1))) N [] /\ s_ne s <= s_ne s' /\ (forall x, x < s_ne s -> s_edges s' x = s_edges s x) /\
      forall rest a, NoDup (n :: rest) -> (forall m, In m rest -> is_node s m) -> netval s (n :: rest) a = netval s' (N :: rest) a.
  Proof.
    intros W Hn (Hnm & Hsh & Hel) Hes.
    assert (slot s (n, 0) = Some e) as S0 by (unfold slot; cbn; rewrite Hn, Hes; reflexivity).
    assert (slot s (n, 1) = Some e) as S1 by (unfold slot; cbn; rewrite Hn, Hes; reflexivity).
    assert ((n, 0) <> (n, 1)) as Q by congruence.
    destruct (wf_slot W S0) as (ed & He & Hd & _).
    assert (is_trace_edge ed = true) as Et.
    { destruct (slot_partner W S0 He) as [(_ & _ & U)|(r & _ & _ & Pe & U)]; [discriminate (U _ S1)|].
      destruct (U _ S1) as [K|K]; [discriminate K|]. subst r. destruct ed as [n1 a1 [[n2 a2]|] ds]; unfold ends in Pe; cbn [e_n1 e_a1 e_2] in Pe.
      - unfold is_trace_edge. cbn [e_2 e_n1]. apply Nat.eqb_eq.
        assert (In (n1, a1) [(n, 0); (n, 1)]) as K1 by (apply (Permutation_in _ Pe); cbn; auto).
        assert (In (n2, a2) [(n, 0); (n, 1)]) as K2 by (apply (Permutation_in _ Pe); cbn; auto).
        destruct K1 as [K1|[K1|[]]], K2 as [K2|[K2|[]]]; congruence.
      - apply Permutation_length in Pe. discriminate. }
    set (t := Tensor [] (fun _ => nsum d (fun _ => @r1 R))).
    destruct (leaf_ok t W) as (s' & N & es & H & L). pose proof (lf_len L) as Le. cbn in Le. apply length_zero_iff_nil in Le. subst es.
    exists s', N. destruct (new_node_wf W H) as (_ & _ & _ & _ & _ & _ & _ & Old & _). destruct (new_node_inv H) as (nms & _ & _ & Ne & _). split; [|split; [exact L|split; [lia|split; [exact Old|]]]].
    - unfold drop_node, remove_node. unfold bind at 1. unfold bind at 1. unfold get_node. rewrite Hn, Hnm.
      rewrite (remove_skip 1 S0 He Hd) by auto. rewrite (remove_skip 0 S1 He Hd) by auto. cbn [remove_node_from]. unfold ret at 1. cbn [dget find]. unfold dget. cbn [find].
      unfold bind. unfold t in H. rewrite H. reflexivity.
    - intros rest a HN Hr. apply NoDup_cons_iff in HN. destruct HN as [Hnr HNr].
      change (n :: rest) with ([n] ++ rest). change (N :: rest) with ([N] ++ rest). rewrite !netval_app.
      + rewrite (leaf_value L), (kept_netval a W (lf_wf L) (lf_kept L) Hr). f_equal.
        destruct (cut_ok W S0 S1 Q He) as (s1 & f1 & f2 & fd & f & g & _ & _ & _ & C).
        rewrite (ct_val C a (ns := [n])) by (cbn; auto; repeat constructor; cbn; auto). cbn [map elt t].
        assert (edim s e = d) as -> by (pose proof (edim_dimat W S0) as K; unfold dimat in K; cbn in K; rewrite Hn, Hsh in K; cbn in K; congruence).
        apply nsum_ext. intros i Hi.
        assert (length (n_edges nd) = 2) as HL by (rewrite Hes; reflexivity).
        destruct (nodes_edges2 (ct_same C) Hn HL (cut_p C) (cut_q C Q)) as (nd2 & Hn2 & Hes2 & Ht2 & _).
        rewrite (netval_single _ Hn2) by (rewrite Hes2; pose proof (ct_fg C); repeat constructor; cbn; intuition congruence). rewrite Hes2, Ht2. cbn [map].
        pose proof (ct_fg C). match goal with |- elt _ [?x; ?y] = _ => assert (x = i) as -> by (unfold Prelude.upd; repeat (destruct (Nat.eq_dec _ _); try lia)); assert (y = i) as -> by (unfold Prelude.upd; repeat (destruct (Nat.eq_dec _ _); try lia)) end.
        rewrite Hel by assumption. rewrite Nat.eqb_refl. reflexivity.
      + intros m m' x [<-|[]] Hm Ho. apply (leaf_on L) in Ho. destruct Ho.
      + intros m m' x [<-|[]] Hm Ho (j & Hj). apply (on_In x Hn) in Ho. rewrite Hes in Ho. assert (x = e) as -> by (cbn in Ho; intuition).
        destruct (slot_partner W S0 He) as [(_ & _ & U)|(r & _ & _ & _ & U)]; [discriminate (U _ S1)|].
        destruct (U _ S1) as [K|K]; [discriminate K|]. subst r. destruct (U _ Hj) as [K|K]; injection K as -> _; contradiction.
  Qed.
End Step.
