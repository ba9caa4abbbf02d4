(** * QuantumUnion: operators after joining edges, and two operators side by side *)
From Verif Require Import Prelude Algebra Tensor TensorFacts Einsum EinsumFacts NetworkFacts Graph GraphBase GraphConnect GraphContract GraphOps GraphValue GraphLaws GraphJoin GraphQuery GraphQueryFacts GraphCopy GraphCopyFacts GraphDensity Quantum QuantumSpec QuantumFacts QuantumNodes QuantumCopy QuantumJoin.
Set Implicit Arguments.
Unset Strict Implicit.

Section QU.
  Context {R : cjr}.
  Notation st := (@st R).
  Implicit Types (s : st) (q T : quop) (e f g : eid) (n m : nid).

  Lemma same_nodes_slot s s' p x : same_nodes s s' -> slot s' p = Some x -> exists y, slot s p = Some y.
  Proof.
    intros SN H. specialize (SN (fst p)). unfold slot in *. destruct (s_nodes s (fst p)) as [a|], (s_nodes s' (fst p)) as [b|]; try contradiction; [|discriminate].
    destruct SN as (_ & _ & E). cbn in *. destruct (nth_error (n_edges a) (snd p)) eqn:K; [eauto|]. apply nth_error_None in K.
    assert (snd p < length (n_edges b)) by (apply nth_error_Some; congruence). lia.
  Qed.
  Lemma same_nodes_is s s' n : same_nodes s s' -> is_node s' n <-> is_node s n.
  Proof. intros SN. specialize (SN n). unfold is_node. destruct (s_nodes s n), (s_nodes s' n); try contradiction; split; congruence. Qed.

  Section Join.
    Variables (s s' : st) (T : quop) (ns : list nid) (es fs : list eid).
    Hypothesis (W : wf s) (O : oper s T ns) (J : joined s s' es fs) (Hin : forall x, In x (es ++ fs) -> In x (q_edges T)).

    Lemma join_open x : In x (es ++ fs) -> exists n, open_on s n x.
    Proof using Hin O. intros Hx. apply Hin, (op_open O) in Hx. destruct Hx as (n & _ & H). eauto. Qed.
    Lemma jslot p x : slot s' p = Some x -> (slot s p = Some x /\ ~ In x (es ++ fs)) \/ (s_ne s <= x /\ exists y, In y (es ++ fs) /\ slot s p = Some y).
    Proof using Hin J O W.
      intros H. destruct (same_nodes_slot (jn_same J) H) as [y Hy]. destruct (in_dec Nat.eq_dec y (es ++ fs)) as [K|K].
      - right. destruct (joined_slot_new W J Hy K join_open) as (g & p' & G1 & G2 & _). rewrite H in G2. injection G2 as <-. split; [exact G1|]. eauto.
      - left. pose proof (jn_slot J Hy K) as E. rewrite H in E. injection E as ->. auto.
    Qed.
    Lemma jslot_old p x : slot s' p = Some x -> x < s_ne s -> slot s p = Some x /\ ~ In x (es ++ fs).
    Proof using Hin J O W. intros H Hx. destruct (jslot H) as [K|[K _]]; [exact K|lia]. Qed.

    Lemma join_closed n m : In n ns -> connected s' n m -> In m ns.
    Proof using Hin J O W.
      intros Hn H. revert Hn. induction H as [n|n m l e H IH H1 H2]; intros Hn; [exact Hn|]. specialize (IH Hn). destruct H1 as (k & Hk), H2 as (j & Hj).
      destruct (jslot Hk) as [[K1 K2]|[K1 (y & K2 & K3)]].
      - destruct (slot_lt W K1) as [_ Hlt]. destruct (jslot_old Hj Hlt) as [K3 _]. apply (@oper_closed _ s T ns m l e O IH); [exists k|exists j]; assumption.
      - destruct (jslot Hj) as [[K4 _]|[_ (z & K5 & K6)]]; [destruct (slot_lt W K4) as [_ Hlt]; lia|].
        apply Hin, (op_open O) in K5. destruct K5 as (x & Hx & i & Hi & Hu). pose proof (Hu _ K6) as E. injection E as -> _. exact Hx.
    Qed.

    Lemma join_oper q' : Permutation (q_edges T) (q_edges q' ++ es ++ fs) -> (forall n, In n (q_ref q') <-> In n ns) -> (forall n, In n (q_cps q') -> In n ns) -> oper s' q' ns.
    Proof using Hin J O W.
      intros P Hr Hc.
      assert (NoDup (q_edges q' ++ es ++ fs)) as ND by apply (Permutation_NoDup P (op_edges O)).
      assert (forall x, In x (q_edges q') -> In x (q_edges T) /\ ~ In x (es ++ fs)) as Hq.
      { intros x Hx. split; [apply (Permutation_in _ (Permutation_sym P)), in_or_app; left; exact Hx|]. apply NoDup_app_iff in ND. destruct ND as (_ & _ & D). apply D, Hx. }
      assert (forall x, In x (q_edges T) -> ~ In x (es ++ fs) -> In x (q_edges q')) as Hq'.
      { intros x Hx K. apply (Permutation_in _ P), in_app_or in Hx. destruct Hx; [assumption|contradiction]. }
      split.
      - apply (op_nodup O).
      - intros m. split.
        + intros Hm. exists m. split; [right; apply Hr, Hm|constructor].
        + intros (n & Hn & K). apply (fun H => @join_closed n m H K). destruct Hn as [(e & He & (j & Hj))|Hn]; [|apply Hr, Hn].
          assert (In e (q_edges q')) as He' by (unfold q_edges; rewrite app_assoc; apply in_or_app; left; exact He).
          destruct (Hq e He') as [E1 E2]. apply (op_open O) in E1. destruct E1 as (x & Hx & k & Hk & Hu). destruct (slot_lt W Hk) as [_ Hlt].
          destruct (jslot_old Hj Hlt) as [K3 _]. pose proof (Hu _ K3) as E. injection E as -> _. exact Hx.
      - apply NoDup_app_iff in ND. apply ND.
      - intros e. split.
        + intros He. destruct (Hq e He) as [E1 E2]. apply (op_open O) in E1. destruct E1 as (x & Hx & k & Hk & Hu). destruct (slot_lt W Hk) as [_ Hlt].
          exists x. split; [exact Hx|]. exists k. split; [apply (jn_slot J Hk E2)|]. intros p Hp. destruct (jslot_old Hp Hlt) as [K _]. apply Hu, K.
        + intros (n & Hn & k & Hk & Hu). destruct (jslot Hk) as [[K1 K2]|[K1 (y & K2 & K3)]].
          * apply Hq'; [|exact K2]. apply (op_open O). exists n. split; [exact Hn|]. exists k. split; [exact K1|]. intros p Hp. apply Hu. apply (jn_slot J Hp K2).
          * exfalso. destruct (joined_slot_new W J K3 K2 join_open) as (g & p' & _ & G2 & G3 & G4 & _). rewrite Hk in G2. injection G2 as <-. apply G4, Hu, G3.
      - apply (op_some O).
      - intros n Hn. apply (same_nodes_is n (jn_same J)), (op_node O Hn).
      - intros n Hn nd Hnd. pose proof (jn_same J n) as E. rewrite Hnd in E. destruct (s_nodes s n) as [nd0|] eqn:E0; [|contradiction]. destruct E as (E1 & E2 & _).
        rewrite E1, E2. apply (op_named O Hn E0).
      - exact Hc.
    Qed.

    Lemma join_edim e : In e (q_edges T) -> ~ In e (es ++ fs) -> edim s' e = edim s e.
    Proof using Hin J O W.
      intros He Hn. apply (op_open O) in He. destruct He as (n & _ & k & Hk & _). pose proof (jn_slot J Hk Hn) as Hk'.
      pose proof (edim_dimat (jn_wf J) Hk') as D1. rewrite (same_nodes_dimat _ (jn_same J)), (edim_dimat W Hk) in D1. congruence.
    Qed.

    Lemma join_kept s0 : kept s0 s -> fresh_nodes s0 ns -> kept s0 s'.
    Proof using Hin J O W.
      intros K F.
      assert (forall m k x, is_node s0 m -> slot s (m, k) = Some x -> ~ In x (es ++ fs)) as Hno.
      { intros m k x Hm Hk Hx. apply Hin, (op_open O) in Hx. destruct Hx as (n & Hn & j & Hj & Hu). pose proof (Hu _ Hk) as E. injection E as -> _. apply (F n Hn Hm). }
      assert (forall m k, is_node s0 m -> slot s' (m, k) = slot s (m, k)) as Hs.
      { intros m k Hm. destruct (slot s (m, k)) as [x|] eqn:E; [apply (jn_slot J E (Hno m k x Hm E))|].
        destruct (slot s' (m, k)) as [y|] eqn:E'; [|reflexivity]. destruct (same_nodes_slot (jn_same J) E') as [z Hz]. congruence. }
      split.
      - intros m Hm. rewrite (nodes_eq (jn_same J) (fun k => Hs m k Hm)). apply (k_nodes K Hm).
      - intros m e Ho. pose proof (on_node Ho) as Hm. rewrite (jn_old J); [apply (k_edges K Ho)|]. apply (kept_on e K Hm) in Ho. destruct Ho as (k & Hk). apply (slot_lt W Hk).
      - intros m n e Hm (k & Hk) (j & Hj). rewrite (Hs m k Hm) in Hk. destruct (slot_lt W Hk) as [_ Hlt]. destruct (jslot_old Hj Hlt) as [K1 _].
        apply (@k_sep _ s0 s K m n e Hm); [exists k|exists j]; assumption.
    Qed.

    Lemma join_copyable q' : q_cps q' = q_cps T -> copyable s T ->
      Forall2 (fun e f => forall n i j, In n (q_cps T) -> slot s (n, i) = Some e -> slot s (n, j) = Some f -> i < j) es fs -> copyable s' q'.
    Proof using Hin J O W.
      intros Ec K HP n e ed a2 Hn (k & Hk) Hed H1 H2. rewrite Ec in Hn. destruct (jslot Hk) as [[K1 K2]|[K1 (y & K2 & K3)]].
      - destruct (slot_lt W K1) as [_ Hlt]. rewrite (jn_old J Hlt) in Hed. apply (K n e ed a2 Hn); auto. exists k. exact K1.
      - assert (exists e1 f1, In e1 es /\ In f1 fs /\ (y = e1 \/ y = f1) /\ (forall n i j, In n (q_cps T) -> slot s (n, i) = Some e1 -> slot s (n, j) = Some f1 -> i < j) /\
          exists g p p', s_ne s <= g /\ slot s p = Some e1 /\ slot s p' = Some f1 /\ slot s' p = Some g /\ slot s' p' = Some g /\
          s_edges s' g = Some (Edge (fst p) (snd p) (Some p') false)) as (e1 & f1 & I1 & I2 & Hy & Hlt & g & p & p' & G1 & G2 & G3 & G4 & G5 & G6).
        { pose proof (jn_pair J) as JP. apply in_app_or in K2. clear - JP HP K2. induction JP as [|u v l l' H JP IH]; [destruct K2 as [[]|[]]|]. inversion HP as [|? ? ? ? H' HP']; subst.
          destruct K2 as [[<-|K2]|[<-|K2]]; try solve [exists u, v; split; [left; reflexivity|]; split; [left; reflexivity|]; auto];
            (destruct (IH HP') as (e' & f' & T1 & T2 & T3); [auto|]; exists e', f'; split; [right; exact T1|]; split; [right; exact T2|exact T3]). }
        assert (forall z a b, slot s a = Some z -> slot s b = Some z -> In z (es ++ fs) -> a = b) as Uq.
        { intros z a b Ha Hb Hz. destruct (join_open Hz) as (x & i & _ & Hu). rewrite (Hu a Ha), (Hu b Hb). reflexivity. }
        assert (e = g) as ->.
        { destruct Hy as [->| ->].
          - rewrite (Uq e1 (n, k) p K3 G2 K2) in Hk. congruence.
          - rewrite (Uq f1 (n, k) p' K3 G3 K2) in Hk. congruence. }
        rewrite G6 in Hed. injection Hed as <-. cbn [e_n1 e_2 e_a1] in *. injection H2 as H2. destruct p as [x i], p' as [x' j]. cbn [fst snd] in *. subst x. injection H2 as -> ->.
        apply (Hlt n i a2 Hn G2 G3).
    Qed.
  End Join.

  (** ** two operators side by side *)
  Section Union.
    Variables (s : st) (q1 q2 : quop) (N1 N2 : list nid) (ref : list nid).
    Hypothesis (W : wf s) (O1 : oper s q1 N1) (O2 : oper s q2 N2) (D : forall n, In n N1 -> ~ In n N2) (Hr : forall n, In n ref <-> In n (N1 ++ N2)).
    Definition beside : quop := Qu (q_out q1 ++ q_out q2) (q_in q1 ++ q_in q2) ref (q_ign q1 ++ q_ign q2) (q_cps q1 ++ q_cps q2).

    Lemma beside_edges : Permutation (q_edges beside) (q_edges q1 ++ q_edges q2).
    Proof.
      unfold q_edges, beside. cbn. rewrite <- !app_assoc. apply Permutation_app_head. rewrite app_assoc. rewrite (Permutation_app_comm (q_out q2) (q_in q1)). rewrite <- !app_assoc.
      apply Permutation_app_head. rewrite !app_assoc. rewrite <- (app_assoc _ (q_ign q1) (q_ign q2)). rewrite (Permutation_app_comm (q_out q2 ++ q_in q2) (q_ign q1 ++ q_ign q2)).
      rewrite <- !app_assoc. apply Permutation_app_head. rewrite Permutation_app_comm, <- app_assoc. reflexivity.
    Qed.
    Lemma beside_sep m n e : In m N1 -> In n N2 -> on s m e -> ~ on s n e.
    Proof using D O1. intros Hm Hn H1 H2. apply (D (oper_closed O1 Hm H1 H2) Hn). Qed.

    Lemma beside_oper : oper s beside (N1 ++ N2).
    Proof using D Hr O1 O2.
      split.
      - apply NoDup_app_iff. split; [apply (op_nodup O1)|]. split; [apply (op_nodup O2)|exact D].
      - intros m. split.
        + intros Hm. exists m. split; [right; apply Hr, Hm|constructor].
        + intros (n & Hn & K). assert (In n (N1 ++ N2)) as Hn'.
          { destruct Hn as [(e & He & Ho)|Hn]; [|apply Hr, Hn]. cbn [beside q_out q_in] in He. apply in_or_app.
            assert (In e (q_edges q1) \/ In e (q_edges q2)) as [K1|K1] by (unfold q_edges; rewrite !in_app_iff in *; tauto); [left|right].
            - destruct (oper_edge_on O1 K1) as (x & Hx & Ox). apply (oper_closed O1 Hx Ox Ho).
            - destruct (oper_edge_on O2 K1) as (x & Hx & Ox). apply (oper_closed O2 Hx Ox Ho). }
          clear Hn. induction K as [n|n m l e K IH H1 H2]; [exact Hn'|]. specialize (IH Hn'). apply in_app_or in IH. apply in_or_app.
          destruct IH as [IH|IH]; [left; apply (oper_closed O1 IH H1 H2)|right; apply (oper_closed O2 IH H1 H2)].
      - apply (Permutation_NoDup (Permutation_sym beside_edges)). apply NoDup_app_iff. split; [apply (op_edges O1)|]. split; [apply (op_edges O2)|].
        intros e H1 H2. destruct (oper_edge_on O1 H1) as (x & Hx & Ox). destruct (oper_edge_on O2 H2) as (y & Hy & Oy). apply (beside_sep Hx Hy Ox Oy).
      - intros e. rewrite (Permutation_in' eq_refl beside_edges), in_app_iff, (op_open O1), (op_open O2). split.
        + intros [(n & Hn & H)|(n & Hn & H)]; exists n; (split; [apply in_or_app; auto|exact H]).
        + intros (n & Hn & H). apply in_app_or in Hn. destruct Hn; [left|right]; eauto.
      - intros K. apply app_eq_nil in K. apply (op_some O1), K.
      - intros n Hn. apply in_app_or in Hn. destruct Hn as [Hn|Hn]; [apply (op_node O1 Hn)|apply (op_node O2 Hn)].
      - intros n Hn. apply in_app_or in Hn. destruct Hn as [Hn|Hn]; [apply (op_named O1 Hn)|apply (op_named O2 Hn)].
      - intros n Hn. cbn in Hn. apply in_app_or in Hn. apply in_or_app. destruct Hn as [Hn|Hn]; [left; apply (op_cps O1 Hn)|right; apply (op_cps O2 Hn)].
    Qed.
    Lemma beside_copyable : copyable s q1 -> copyable s q2 -> copyable s beside.
    Proof. intros C1 C2 n e ed a2 Hn. cbn in Hn. apply in_app_or in Hn. destruct Hn as [Hn|Hn]; [apply (C1 n e ed a2 Hn)|apply (C2 n e ed a2 Hn)]. Qed.
    Lemma beside_value a : netval s (N1 ++ N2) a = rmul (netval s N1 a) (netval s N2 a).
    Proof using D O1. apply netval_app. intros m n e. apply beside_sep. Qed.
  End Union.

  (** ** check_spaces *)
  Lemma edge_dim_ok s n e : wf s -> on s n e -> edge_dim e s = (s, Some (edim s e)).
  Proof.
    intros W (k & Hk). destruct (wf_slot W Hk) as (ed & He & Hdis & Hin & _). unfold edge_dim, bind, get_edge. rewrite He, Hdis. unfold get_node.
    assert (slot s (e_n1 ed, e_a1 ed) = Some e) as H1.
    { apply (ends_live W Hk He). unfold ends. left. reflexivity. }
    pose proof (edim_dimat W H1) as D1. unfold dimat in D1. cbn [fst snd] in D1. destruct (s_nodes s (e_n1 ed)) as [nd|]; [|discriminate]. rewrite D1. reflexivity.
  Qed.
  Lemma check_dims_ok s es : forall fs, wf s -> (forall e, In e (es ++ fs) -> exists n, on s n e) -> Forall2 (fun e f => edim s e = edim s f) es fs -> check_dims es fs s = (s, Some tt).
  Proof.
    induction es as [|e es IH]; intros fs W H F; inversion F as [|? f ? fs' E F']; subst; [reflexivity|]. cbn [check_dims].
    destruct (H e (or_introl eq_refl)) as [n Hn]. destruct (H f ltac:(apply in_or_app; right; left; reflexivity)) as [m Hm].
    unfold bind. rewrite (edge_dim_ok W Hn), (edge_dim_ok W Hm), E, Nat.eqb_refl. cbn [guard]. unfold ret. apply IH; [exact W| |exact F'].
    intros x Hx. apply H. apply in_app_or in Hx. cbn. destruct Hx; [right; apply in_or_app; left|right; apply in_or_app; right; right]; assumption.
  Qed.
  Lemma dims_Forall2 s es : forall fs, map (edim s) es = map (edim s) fs -> Forall2 (fun e f => edim s e = edim s f) es fs.
  Proof. induction es as [|e es IH]; intros [|f fs] E; try discriminate; constructor; [injection E as E _; exact E|apply IH; injection E as _ E; exact E]. Qed.
  Lemma check_spaces_ok s es fs : wf s -> (forall e, In e (es ++ fs) -> exists n, on s n e) -> map (edim s) es = map (edim s) fs -> check_spaces es fs s = (s, Some tt).
  Proof.
    intros W H E. unfold check_spaces. replace (length es =? length fs) with true; [cbn [guard]; unfold bind, ret; apply check_dims_ok; auto; apply dims_Forall2, E|].
    symmetry. apply Nat.eqb_eq. rewrite <- (map_length (edim s) es), E, map_length. reflexivity.
  Qed.
  Lemma check_dims_bad s es : forall fs, wf s -> (forall e, In e (es ++ fs) -> exists n, on s n e) -> length es = length fs -> map (edim s) es <> map (edim s) fs -> check_dims es fs s = (s, None).
  Proof.
    induction es as [|e es IH]; intros [|f fs] W H HL E; try discriminate; [congruence|]. cbn [check_dims].
    destruct (H e (or_introl eq_refl)) as [n Hn]. destruct (H f ltac:(apply in_or_app; right; left; reflexivity)) as [m Hm].
    unfold bind. rewrite (edge_dim_ok W Hn), (edge_dim_ok W Hm). destruct (Nat.eqb_spec (edim s e) (edim s f)) as [Q|Q]; cbn [guard]; [|reflexivity]. unfold ret. apply IH; auto.
    - intros x Hx. apply H. apply in_app_or in Hx. cbn. destruct Hx; [right; apply in_or_app; left|right; apply in_or_app; right; right]; assumption.
    - intros K. apply E. cbn. congruence.
  Qed.
  Lemma check_spaces_bad s es fs : wf s -> (forall e, In e (es ++ fs) -> exists n, on s n e) -> map (edim s) es <> map (edim s) fs -> check_spaces es fs s = (s, None).
  Proof.
    intros W H E. unfold check_spaces. destruct (Nat.eqb_spec (length es) (length fs)) as [Q|Q]; cbn [guard]; [|reflexivity]. unfold bind, ret. apply check_dims_bad; auto.
  Qed.

  (** ** connecting through the dictionaries *)
  Lemma join_edges_ok ee1 ee2 es : forall fs s, (forall e, In e es -> exists x, dget ee1 e = Some x) -> (forall f, In f fs -> exists x, dget ee2 f = Some x) ->
    join_edges ee1 ee2 es fs s = connects (map (edict ee1) es) (map (edict ee2) fs) s.
  Proof.
    induction es as [|e es IH]; intros [|f fs] s H1 H2; try reflexivity. cbn [join_edges connects map].
    destruct (H1 e (or_introl eq_refl)) as [x Hx]. destruct (H2 f (or_introl eq_refl)) as [y Hy].
    unfold bind at 1, look at 1. rewrite Hx. unfold ret at 1. unfold bind at 1, look at 1. rewrite Hy. unfold ret at 1. rewrite (edict_get Hx), (edict_get Hy).
    unfold bind. destruct (connect x y s) as [s1 [g|]]; [|reflexivity]. apply IH; intros z Hz; [apply H1|apply H2]; right; exact Hz.
  Qed.
  Lemma trace_edges_ok es : forall fs ee s s', NoDup (es ++ fs) -> length es = length fs -> (forall e, In e (es ++ fs) -> exists x, dget ee e = Some x) ->
    connects (map (edict ee) es) (map (edict ee) fs) s = (s', Some tt) ->
    exists ee', trace_edges ee (combine es fs) s = (s', Some ee') /\ forall x, ~ In x es -> dget ee' x = dget ee x.
  Proof.
    induction es as [|e es IH]; intros [|f fs] ee s s' HN HL H1 H; try discriminate.
    - cbn in H. injection H as <-. exists ee. split; [reflexivity|auto].
    - cbn [combine trace_edges]. cbn [map connects] in H. unfold bind in H. destruct (connect _ _ s) as [s1 [g|]] eqn:E; [|discriminate].
      destruct (H1 e (or_introl eq_refl)) as [x Hx]. destruct (H1 f ltac:(apply in_or_app; right; left; reflexivity)) as [y Hy].
      rewrite (edict_get Hx), (edict_get Hy) in E. unfold bind at 1, look at 1. rewrite Hx. unfold ret at 1. unfold bind at 1, look at 1. rewrite Hy. unfold ret at 1. unfold bind. rewrite E.
      cbn [app] in HN. apply NoDup_cons_iff in HN. destruct HN as [He HN].
      pose proof (Permutation_NoDup (Permutation_sym (Permutation_middle es fs f)) HN) as HN'. apply NoDup_cons_iff in HN'. destruct HN' as [Hf HN'].
      assert (forall z, In z (es ++ fs) -> dget ((e, g) :: ee) z = dget ee z) as Hd.
      { intros z Hz. cbn [dget]. destruct (Nat.eqb_spec e z) as [->|]; [|reflexivity]. exfalso. apply He. apply in_app_or in Hz. apply in_or_app. destruct Hz; [left|right; right]; assumption. }
      assert (forall l, (forall z, In z l -> In z (es ++ fs)) -> map (edict ((e, g) :: ee)) l = map (edict ee) l) as Hm.
      { intros l Hl. apply map_ext_in. intros z Hz. unfold edict. rewrite Hd by (apply Hl, Hz). reflexivity. }
      destruct (IH fs ((e, g) :: ee) s1 s' HN') as (ee' & T1 & T2).
      + injection HL as HL. exact HL.
      + intros z Hz. rewrite Hd by exact Hz. apply H1. apply in_app_or in Hz. cbn. destruct Hz; [right; apply in_or_app; left|right; apply in_or_app; right; right]; assumption.
      + rewrite !Hm by (intros; apply in_or_app; auto). exact H.
      + exists ee'. split; [exact T1|]. intros z Hz. rewrite T2 by (intros K; apply Hz; right; exact K). cbn [dget].
        destruct (Nat.eqb_spec e z) as [->|]; [exfalso; apply Hz; left; reflexivity|reflexivity].
  Qed.
End QU.
