(** * QuantumElimLoop: the loop of eliminate_identities *)
From Verif Require Import Prelude Algebra Tensor TensorFacts Einsum EinsumFacts NetworkFacts Graph GraphBase GraphContract GraphOps GraphValue GraphConnect GraphJoin GraphSched GraphQuery GraphQueryFacts GraphLaws GraphCopy GraphCopyFacts GraphDensity NetIso CopyTensor CopyTensorSpec CopyTensorBucket MpsState Quantum QuantumSpec QuantumFacts QuantumUnion QuantumMake QuantumIdent QuantumElim QuantumElimSpec QuantumElimStep QuantumElimGeo.
Set Implicit Arguments.
Unset Strict Implicit.

Lemma dget_cons (x y : nat) (dd : list (nat * nat)) k : dget ((x, y) :: dd) k = if Nat.eqb x k then Some y else dget dd k.
Proof. unfold dget. cbn. rewrite ?(Nat.eqb_sym k x). destruct (Nat.eqb x k); reflexivity. Qed.
Lemma dget_ids (es : list nat) (dd : list (nat * nat)) k : dget (map (fun e => (e, e)) es ++ dd) k = if mem k es then Some k else dget dd k.
Proof.
  induction es as [|e es IH]; cbn [map app]; [reflexivity|]. rewrite dget_cons, IH. unfold mem. cbn [existsb].
  destruct (Nat.eqb_spec e k) as [->|N]; [rewrite Nat.eqb_refl; reflexivity|]. destruct (Nat.eqb_spec k e); [congruence|reflexivity].
Qed.

Section Loop.
  Context {R : cjr}.
  Notation st := (@st R).
  Implicit Types (s : st) (e f g x y : eid) (n m : nid) (p r : nid * nat) (cur rest : list nid) (phi : eid -> eid).
  Variables (s0 : st) (q : quop) (ns : list nid).
  Hypothesis W0 : wf s0.
  Hypothesis O0 : oper s0 q ns.
  Hypothesis Cp : copies s0 q.
  Notation E := (q_edges q).
  Notation idn := (ident s0 q).
  Notation geo := (geo s0 E ns).

  Definition settled s n : Prop := idn n -> dangles s (n, 0) /\ dangles s (n, 1).
  Definition pairs s cur : Prop := forall n m k j e, In n cur -> In m cur -> idn n -> idn m -> k < 2 -> j < 2 ->
    dangles s (n, k) -> slot s (n, 1 - k) = Some e -> slot s (m, j) = Some e -> dangles s (m, 1 - j).
  Definition link s phi (todo : list nid) (nd : list (nid * nid)) m : Prop :=
    (exists e n, In e (q_out q ++ q_in q) /\ on s n (phi e) /\ connected s n m) \/ (In m todo /\ In m (q_ref q)) \/ exists r : nid, In r (q_ref q) /\ In (r, m) nd.
  (** the edge [y] belongs to the removed identity [m], as does [h], which no dictionary knows *)
  Definition dead s cur (dd : list (eid * eid)) y : Prop :=
    exists m j h, ~ In m cur /\ j < 2 /\ oslot s (m, j) y /\ oslot s (m, 1 - j) h /\ forall e', ~ In (e', h) dd.
  Definition waiting s phi (todo : list nid) e : Prop := phi e = e /\ exists r, In (fst r) todo /\ slot s r = Some e.

  Record inv s phi (todo : list nid) (nd : list (nid * nid)) (dd : list (eid * eid)) : Prop := {
    v_geo : geo s phi (todo ++ map snd nd);
    v_some : todo ++ map snd nd <> [];
    v_todo : forall n, In n todo -> In n ns;
    v_keys : NoDup (map fst nd ++ todo);
    v_fst : forall n m, In (n, m) nd -> In n ns /\ (m = n \/ ~ is_node s0 m);
    v_plain : forall n, In n ns -> ~ idn n -> In n todo \/ In (n, n) nd;
    v_done : forall n m, In (n, m) nd -> settled s m;
    v_link : linked s0 q ns -> forall m, In m (todo ++ map snd nd) -> link s phi todo nd m;
    v_pairs : paired s0 q -> pairs s (todo ++ map snd nd);
    v_good : paired s0 q -> forall e, In e E -> waiting s phi todo e \/ (dget dd e = Some (phi e) /\ exists r, slot s r = Some (phi e) /\ settled s (fst r));
    v_dict : forall e, In e E -> waiting s phi todo e \/ dget dd e = Some (phi e) \/ exists y, dget dd e = Some y /\ dead s (todo ++ map snd nd) dd y;
    v_range : forall e x, In (e, x) dd -> x < s_ne s
  }.

  Lemma E_lt e : In e E -> e < s_ne s0.
  Proof. intros He. apply (op_open O0) in He. destruct He as (n & _ & k & Hk & _). apply (slot_lt W0 Hk). Qed.
  Lemma idn_node n : idn n -> In n ns /\ is_node s0 n.
  Proof. intros [H _]. pose proof (op_cps O0 H) as K. split; [exact K|apply (op_node O0 K)]. Qed.
  Lemma phi_slot s phi cur e : geo s phi cur -> In e E -> exists r, In (fst r) cur /\ oslot s r (phi e).
  Proof. intros G He. apply (g_open G). exists e. split; [exact He|reflexivity]. Qed.
  Lemma phi_at s phi cur e r : geo s phi cur -> In e E -> slot s r = Some (phi e) -> oslot s r (phi e) /\ In (fst r) cur.
  Proof. intros G He Hr. destruct (phi_slot G He) as (r1 & H1 & H2). rewrite (oslot_unique (g_wf G) H2 Hr). split; assumption. Qed.
  (** an edge of the operator that dangles in the current network has not been replaced *)
  Lemma open_phi s phi cur e r : geo s phi cur -> In e E -> In (fst r) cur -> oslot s r e -> phi e = e.
  Proof.
    intros G He Hr Ho. destruct (proj2 (g_open G e) (ex_intro _ r (conj Hr Ho))) as (e' & He' & Q).
    pose proof (E_lt He). destruct (g_fresh G He') as [K|K]; [|lia]. assert (e' = e) as -> by congruence. exact Q.
  Qed.
  Lemma idn_shape s phi cur n : geo s phi cur -> In n cur -> idn n -> exists nd d e0 e1, s_nodes s n = Some nd /\ one_at nd d /\ n_edges nd = [e0; e1] /\
    slot s (n, 0) = Some e0 /\ slot s (n, 1) = Some e1 /\ (forall k, 2 <= k -> slot s (n, k) = None) /\ nth 0 (shape (n_t nd)) 0 = d /\ rank (n_t nd) = 2.
  Proof.
    intros G Hn Hi. pose proof Hi as [Hc (nd0 & H0 & Hr)]. destruct (Cp Hc) as (nd1 & k & d & H1 & Hsh & Hel). rewrite H0 in H1. injection H1 as <-.
    destruct (g_same G H0) as (nd & H2 & Ht & Hnm & Hl). pose proof (wf_rank W0 H0) as K0. rewrite Hr in K0.
    cbn in Hsh. assert (k = 2) as -> by (unfold rank in Hr; rewrite Hsh, repeat_length in Hr; exact Hr). cbn in Hsh.
    destruct (n_edges nd) as [|e0 [|e1 [|]]] eqn:Ee; try (cbn in Hl; rewrite K0 in Hl; discriminate).
    exists nd, d, e0, e1. split; [exact H2|]. split.
    { split; [|split].
      - destruct (g_named G Hn H2) as [_ Q]. rewrite Q, Ht. exact Hr.
      - rewrite Ht. exact Hsh.
      - intros i j Hi1 Hj1. rewrite Ht, Hel; [|rewrite Hsh; repeat constructor; assumption].
        rewrite (proj2 (copy_tensor_delta (R := R) 2 d)) by (cbn; repeat constructor; assumption). cbn [alleq forallb]. rewrite andb_true_r. reflexivity. }
    split; [exact Ee|]. unfold slot. cbn. rewrite H2, Ee. cbn. split; [reflexivity|]. split; [reflexivity|]. split.
    - intros j Hj. destruct j as [|[|j]]; [lia|lia|]. cbn. destruct j; reflexivity.
    - rewrite Ht, Hsh. split; [reflexivity|]. unfold rank. rewrite Hsh. reflexivity.
  Qed.
  Lemma dead_incl s cur cur' dd dd' y : (forall m, In m cur' -> In m cur) -> (forall m j h, ~ In m cur -> j < 2 -> oslot s (m, 1 - j) h -> forall e', In (e', h) dd' -> In (e', h) dd) ->
    dead s cur dd y -> dead s cur' dd' y.
  Proof.
    intros I Hd (m & j & h & H1 & H2 & H3 & H4 & H5). exists m, j, h. repeat split; auto; try apply H3; try apply H4. intros e' K. apply (H5 e'). apply (Hd m j h); auto.
  Qed.

  (** ** a node that stays *)
  Lemma inv_keep s phi n todo nd dd es : inv s phi (n :: todo) nd dd -> settled s n -> (forall x, In x es <-> open_on s n x) ->
    inv s phi todo ((n, n) :: nd) (map (fun e => (e, e)) es ++ dd).
  Proof.
    intros V Hs Hes. pose proof (v_geo V) as G. pose proof (g_wf G) as W. cbn [app] in G.
    assert (Permutation (n :: todo ++ map snd nd) (todo ++ map snd ((n, n) :: nd))) as P by (cbn; apply Permutation_middle).
    assert (forall m, In m (todo ++ map snd ((n, n) :: nd)) <-> In m (n :: todo ++ map snd nd)) as I by (intros m; split; apply Permutation_in; [symmetry; exact P|exact P]).
    assert (forall x, In x es <-> exists k, oslot s (n, k) x) as Hes' by (intros x; rewrite Hes; apply open_oslot; exact W).
    assert (forall e, In e E -> In e es -> phi e = e) as Hphi.
    { intros e He H. apply Hes' in H. destruct H as (k & Hk). apply (open_phi (r := (n, k)) G He); [left; reflexivity|exact Hk]. }
    assert (forall e, In e E -> waiting s phi (n :: todo) e -> waiting s phi todo e \/ (dget (map (fun e => (e, e)) es ++ dd) e = Some (phi e) /\ exists r, slot s r = Some (phi e) /\ settled s (fst r))) as Hw.
    { intros e He (Q1 & r & [Hr|Hr] & Q2); [right|left; split; [exact Q1|exists r; auto]].
      rewrite Q1. assert (oslot s r e) as Ho by (rewrite <- Q1; apply (phi_at (r := r) G He); rewrite Q1; exact Q2).
      split; [|exists r; split; [exact Q2|rewrite <- Hr; exact Hs]]. rewrite dget_ids. assert (In e es) as Q3 by (apply Hes'; exists (snd r); rewrite Hr, <- surjective_pairing; exact Ho).
      apply mem_In in Q3. rewrite Q3. reflexivity. }
    split.
    - apply (geo_perm P G).
    - intros K. rewrite K in P. apply Permutation_sym, Permutation_nil in P. discriminate.
    - intros m Hm. apply (v_todo V). right. exact Hm.
    - pose proof (v_keys V) as K. cbn [map fst]. apply (Permutation_NoDup (l := map fst nd ++ n :: todo)); [symmetry; apply Permutation_middle|exact K].
    - intros m m' [H|H]; [injection H as <- <-; split; [apply (v_todo V); left; reflexivity|auto]|apply (v_fst V H)].
    - intros m Hm K. destruct (v_plain V Hm K) as [[<-|H]|H]; [right; left; reflexivity|left; exact H|right; right; exact H].
    - intros m m' [H|H]; [injection H as <- <-; exact Hs|apply (v_done V H)].
    - intros L m Hm. apply I in Hm. destruct (v_link V L Hm) as [H|[[H1 H2]|(r & H1 & H2)]]; [left; exact H| |right; right; exists r; split; [exact H1|right; exact H2]].
      destruct H1 as [<-|H1]; [right; right; exists n; split; [exact H2|left; reflexivity]|right; left; auto].
    - intros Pr m m' k j e Hm Hm'. apply (v_pairs V Pr); apply I; assumption.
    - intros Pr e He. destruct (v_good V Pr He) as [H|[H1 H2]]; [apply (Hw e He H)|].
      right. split; [|exact H2]. rewrite dget_ids. destruct (mem e es) eqn:Q; [|exact H1]. apply mem_In in Q. rewrite (Hphi e He Q). reflexivity.
    - intros e He. destruct (v_dict V He) as [H|[H1|(y & H1 & H2)]].
      + destruct (Hw e He H) as [K|[K _]]; auto.
      + right. left. rewrite dget_ids. destruct (mem e es) eqn:Q; [|exact H1]. apply mem_In in Q. rewrite (Hphi e He Q). reflexivity.
      + rewrite dget_ids. destruct (mem e es) eqn:Q; [right; left; apply mem_In in Q; rewrite (Hphi e He Q); reflexivity|].
        right. right. exists y. split; [exact H1|]. apply (dead_incl (cur := n :: todo ++ map snd nd) (dd := dd)); [intros m; apply I| |exact H2].
        intros m j h Nm _ Ho e' K. apply in_app_or in K. destruct K as [K|K]; [|exact K]. exfalso. apply in_map_iff in K. destruct K as (z & Z1 & Z2). injection Z1 as <- ->.
        apply Hes' in Z2. destruct Z2 as (k & Z2). pose proof (oslot_unique W Z2 (proj1 Ho)) as K. injection K as -> _. apply Nm. left. reflexivity.
    - intros e x H. apply in_app_or in H. destruct H as [H|H]; [|apply (v_range V H)]. apply in_map_iff in H. destruct H as (z & Z1 & Z2). injection Z1 as <- <-.
      apply Hes' in Z2. destruct Z2 as (k & Z2). apply (slot_lt W (proj1 Z2)).
  Qed.

  (** ** an identity between two slots *)
  Lemma settled_step s s' n : (forall k x, oslot s (n, k) x -> oslot s' (n, k) x) -> settled s n -> settled s' n.
  Proof.
    intros H K Hi. destruct (K Hi) as [K0 K1]. apply dangles_oslot in K0, K1. destruct K0 as (x & K0), K1 as (y & K1).
    split; eapply oslot_dangles; apply H; eassumption.
  Qed.
  Lemma inv_splice s s' phi n todo nd dd p0 p1 e0 e1 g : inv s phi (n :: todo) nd dd -> idn n -> spliced s s' n p0 p1 g ->
    slot s (n, 0) = Some e0 -> slot s (n, 1) = Some e1 -> (forall k, 2 <= k -> slot s (n, k) = None) ->
    slot s p0 = Some e0 -> slot s p1 = Some e1 -> fst p0 <> n -> fst p1 <> n -> p0 <> p1 -> inv s' phi todo nd dd.
  Proof.
    intros V Hid Sp S0 S1 S2 P0 P1 N0 N1 Hpp. pose proof (v_geo V) as G. pose proof (g_wf G) as W. cbn [app] in G. set (rest := todo ++ map snd nd) in *.
    pose proof (geo_splice G Sp S0 S1 S2 P0 P1 N0 N1 Hpp) as G'. pose proof (g_wf G') as W'.
    assert (forall r x, fst r <> n -> oslot s' r x <-> oslot s r x) as Os by (intros r x; apply (splice_oslot G Sp S0 S1 P0 P1 N0 N1 Hpp)).
    assert (forall k x, ~ oslot s (n, k) x) as Nn by (intros k x; apply (splice_n_open G S0 S1 S2 P0 P1 N0 N1)).
    assert (forall m, In m rest -> m <> n) as Hrn by (intros m; apply (splice_notn G)).
    assert (forall e r, In e E -> slot s r = Some (phi e) -> fst r <> n /\ oslot s' r (phi e)) as At.
    { intros e r He Hr. destruct (phi_at G He Hr) as [Ho _]. assert (fst r <> n) as Q by (intros Q; destruct r as [n' j]; cbn in Q; subst n'; apply (Nn _ _ Ho)).
      split; [exact Q|apply Os; assumption]. }
    assert (forall m, In m rest -> settled s m -> settled s' m) as St by (intros m Hm; apply settled_step; intros k x; apply (Os (m, k)); cbn; apply Hrn, Hm).
    assert (forall m k, m <> n -> dangles s' (m, k) <-> dangles s (m, k)) as Dg.
    { intros m k Hm. split; intros H; apply dangles_oslot in H; destruct H as (x & H); apply (oslot_dangles (x := x)); apply (Os (m, k)); assumption. }
    assert (forall e, In e E -> waiting s phi (n :: todo) e -> waiting s' phi todo e) as Hw.
    { intros e He (Q1 & r & Hr & Q2). rewrite <- Q1 in Q2. destruct (At e r He Q2) as [A1 A2]. split; [exact Q1|]. exists r. split; [destruct Hr; [congruence|assumption]|]. rewrite <- Q1. apply A2. }
    split; fold rest.
    - exact G'.
    - intros K. pose proof (splice_in0 G S0 P0 N0) as Q. rewrite K in Q. destruct Q.
    - intros m Hm. apply (v_todo V). right. exact Hm.
    - pose proof (v_keys V) as K. apply NoDup_remove_1 in K. exact K.
    - apply (v_fst V).
    - intros m Hm K. destruct (v_plain V Hm K) as [[<-|H]|H]; [contradiction|left; exact H|right; exact H].
    - intros m m' H. apply St; [|apply (v_done V H)]. apply in_or_app. right. apply in_map_iff. exists (m, m'). auto.
    - intros L m Hm. destruct (v_link V L (or_intror Hm)) as [(e & n1 & H1 & H2 & H3)|[[H1 H2]|H]]; [left|right; left|right; right; exact H].
      + exists e, n1. split; [exact H1|]. destruct H2 as (k & H2). assert (In e E) as He by (unfold q_edges; rewrite app_assoc; apply in_or_app; left; exact H1).
        destruct (At e (n1, k) He H2) as [A1 A2]. cbn in A1. split; [exists k; apply A2|].
        pose proof (splice_conn G Sp S0 S1 S2 P0 P1 N0 N1 Hpp H3) as Q. unfold past in Q.
        destruct (Nat.eqb_spec n1 n); [contradiction|]. destruct (Nat.eqb_spec m n) as [->|]; [exfalso; apply (Hrn n Hm eq_refl)|exact Q].
      + split; [|exact H2]. destruct H1 as [<-|H1]; [exfalso; apply (Hrn n Hm eq_refl)|exact H1].
    - intros Pr a b k j e Ha Hb Ia Ib Hk Hj Hd Hs1 Hs2. pose proof (v_pairs V Pr) as Pv. pose proof (Hrn a Ha) as Na. pose proof (Hrn b Hb) as Nb.
      apply (Dg a k Na) in Hd. apply (Dg b (1 - j) Nb).
      assert (forall i pe, pe = p0 \/ pe = p1 -> slot s pe = slot s (n, i) -> i < 2 -> (a, 1 - k) = pe -> False) as Bad.
      { intros i pe Hpe Hsl Hi Ha'. assert (exists x, slot s (n, i) = Some x) as (x & Hx) by (assert (i = 0 \/ i = 1) as [-> | ->] by lia; eauto).
        assert (dangles s (n, 1 - i)) as Q.
        { apply (Pv a n k i x); auto; [right; exact Ha|left; reflexivity|]. rewrite Ha', Hsl. exact Hx. }
        apply dangles_oslot in Q. destruct Q as (z & Q). apply (Nn _ _ Q). }
      destruct (splice_slot G Sp (r := (a, 1 - k)) Na Hs1) as [(A1 & A2 & A3 & A4)|[[A1|A1] A2]].
      + destruct (splice_slot G Sp (r := (b, j)) Nb Hs2) as [(B1 & B2 & B3 & B4)|[_ B2]]; [|pose proof (sp_g Sp); lia].
        apply (Pv a b k j e); auto; right; assumption.
      + exfalso. apply (Bad 0 p0); auto; congruence.
      + exfalso. apply (Bad 1 p1); auto; congruence.
    - intros Pr e He. destruct (v_good V Pr He) as [H|[H1 (r & H2 & H3)]]; [left; apply (Hw e He H)|right].
      split; [exact H1|]. exists r. destruct (At e r He H2) as [A1 A2]. split; [apply A2|]. apply St; [|exact H3]. destruct (phi_at G He H2) as [_ [Q|Q]]; [congruence|exact Q].
    - intros e He. destruct (v_dict V He) as [H|[H1|(y & H1 & (m & j & h & D1 & D2 & D3 & D4 & D5))]]; [left; apply (Hw e He H)|right; left; exact H1|right; right].
      exists y. split; [exact H1|]. assert (m <> n) as Nm by (intros ->; apply D1; left; reflexivity).
      exists m, j, h. split; [intros K; apply D1; right; exact K|]. split; [exact D2|]. split; [apply (Os (m, j)); assumption|]. split; [apply (Os (m, 1 - j)); assumption|exact D5].
    - intros e x H. pose proof (v_range V H). pose proof (sp_ne Sp). lia.
  Qed.

  (** ** an identity with one loose end *)
  Lemma inv_trim s s' phi n todo nd dd k p x y f g : inv s phi (n :: todo) nd dd -> idn n -> cut s s' p (n, 1 - k) y f g -> k < 2 -> oslot s (n, k) x ->
    slot s (n, 1 - k) = Some y -> (forall k, 2 <= k -> slot s (n, k) = None) -> slot s p = Some y -> fst p <> n -> dimat s (n, k) = dimat s (n, 1 - k) ->
    (forall rest a, NoDup (n :: rest) -> In (fst p) rest -> a x < edim s x -> netval s (n :: rest) a = netval s' rest (upd Nat.eq_dec a f (a x))) ->
    inv s' (redirect phi x f) todo nd ((x, f) :: dd).
  Proof.
    intros V Hid C Hk Hx Hy S2 Hp Np Dxy Val. pose proof (v_geo V) as G. pose proof (g_wf G) as W. cbn [app] in G. set (rest := todo ++ map snd nd) in *.
    pose proof (geo_trim G C Hk Hx Hy S2 Hp Np Val Dxy) as G'. pose proof (g_wf G') as W'.
    assert (forall r z, fst r <> n -> oslot s' r z <-> (r = p /\ z = f) \/ oslot s r z) as Os by (intros r z; apply (trim_oslot G C Hy Hp Np)).
    assert (forall j z, oslot s (n, j) z -> j = k /\ z = x) as Nn by (intros j z; apply (trim_n_open G Hk Hx Hy S2 Hp Np)).
    assert (forall m, In m rest -> m <> n) as Hrn by (intros m; apply (trim_notn G)).
    assert (In (fst p) rest) as Ip by (apply (trim_in G Hy Hp Np)).
    pose proof (ct_f C) as Bf. pose proof (ct_g C) as Bg. pose proof (ct_fg C) as Bfg.
    assert (forall m j z, m <> n -> oslot s (m, j) z -> oslot s' (m, j) z) as Up by (intros m j z Hm H; apply (Os (m, j)); auto).
    assert (forall m j, m <> n -> dangles s (m, j) -> dangles s' (m, j)) as Dg.
    { intros m j Hm H. apply dangles_oslot in H. destruct H as (z & H). apply (oslot_dangles (x := z)). apply Up; assumption. }
    assert (forall m, In m rest -> settled s m -> settled s' m) as St by (intros m Hm; apply settled_step; intros j z; apply Up, Hrn, Hm).
    assert (redirect phi x f = fun e => if Nat.eqb (phi e) x then f else phi e) as Er by reflexivity.
    assert (forall e, In e E -> phi e <> x -> e <> x) as Key.
    { intros e He Hne ->. destruct (trim_e G Hx) as (e' & He' & Q). pose proof (E_lt He). destruct (g_fresh G He') as [K|K]; [|lia]. apply Hne. congruence. }
    assert (forall e r, In e E -> phi e <> x -> slot s r = Some (phi e) -> fst r <> n /\ oslot s' r (phi e)) as At.
    { intros e r He Hne Hr. destruct (phi_at G He Hr) as [Ho _]. assert (fst r <> n) as Q by (intros Q; destruct r as [n' j]; cbn in Q; subst n'; apply Hne; apply (Nn _ _ Ho)).
      split; [exact Q|apply Os; auto]. }
    assert (oslot s' p f) as Of by (split; [apply (cut_p C)|apply (ct_ef C)]).
    assert (forall e, In e E -> phi e <> x -> waiting s phi (n :: todo) e -> waiting s' (redirect phi x f) todo e) as Hw.
    { intros e He Hne (Q1 & r & Hr & Q2). rewrite <- Q1 in Q2. destruct (At e r He Hne Q2) as [A1 A2]. split; [rewrite Er; destruct (Nat.eqb_spec (phi e) x); [contradiction|exact Q1]|].
      exists r. split; [destruct Hr; [congruence|assumption]|]. rewrite <- Q1. apply A2. }
    split; fold rest.
    - exact G'.
    - intros K. rewrite K in Ip. destruct Ip.
    - intros m Hm. apply (v_todo V). right. exact Hm.
    - pose proof (v_keys V) as K. apply NoDup_remove_1 in K. exact K.
    - apply (v_fst V).
    - intros m Hm K. destruct (v_plain V Hm K) as [[<-|H]|H]; [contradiction|left; exact H|right; exact H].
    - intros m m' H. apply St; [|apply (v_done V H)]. apply in_or_app. right. apply in_map_iff. exists (m, m'). auto.
    - intros L m Hm. destruct (v_link V L (or_intror Hm)) as [(e & n1 & H1 & H2 & H3)|[[H1 H2]|H]]; [left|right; left|right; right; exact H].
      + assert (In e E) as He by (unfold q_edges; rewrite app_assoc; apply in_or_app; left; exact H1). destruct H2 as (j & H2).
        pose proof (trim_conn G C Hk Hx Hy S2 Hp Np H3) as Q. unfold past1 in Q. destruct (Nat.eqb_spec m n) as [->|_]; [exfalso; apply (Hrn n Hm eq_refl)|].
        destruct (Nat.eq_dec (phi e) x) as [Ex|Nx].
        * exists e, (fst p). split; [exact H1|]. rewrite Er. cbn beta. rewrite Ex, Nat.eqb_refl. split; [exists (snd p); rewrite <- surjective_pairing; apply Of|].
          rewrite Ex in H2. pose proof (oslot_unique W Hx H2) as K. injection K as -> _. rewrite Nat.eqb_refl in Q. exact Q.
        * exists e, n1. split; [exact H1|]. destruct (At e (n1, j) He Nx H2) as [A1 A2]. cbn in A1. rewrite Er. cbn beta. destruct (Nat.eqb_spec (phi e) x); [contradiction|].
          split; [exists j; apply A2|]. destruct (Nat.eqb_spec n1 n); [contradiction|exact Q].
      + split; [|exact H2]. destruct H1 as [<-|H1]; [exfalso; apply (Hrn n Hm eq_refl)|exact H1].
    - intros Pr a b k' j e Ha Hb Ia Ib Hk' Hj Hd Hs1 Hs2. pose proof (v_pairs V Pr) as Pv. pose proof (Hrn a Ha) as Na. pose proof (Hrn b Hb) as Nb.
      assert ((b, j) = (a, 1 - k') -> dangles s' (b, 1 - j)) as Same.
      { intros K. assert (b = a /\ j = 1 - k') as [-> ->] by (split; congruence). replace (1 - (1 - k')) with k' by lia. exact Hd. }
      rewrite (trim_slot C (r := (a, 1 - k')) Na) in Hs1. rewrite (trim_slot C (r := (b, j)) Nb) in Hs2.
      destruct (slot_eqb_spec (a, 1 - k') p) as [Ea|Ea], (slot_eqb_spec (b, j) p) as [Eb|Eb].
      + apply Same. congruence.
      + injection Hs1 as <-. destruct (slot_lt W Hs2). lia.
      + injection Hs2 as <-. destruct (slot_lt W Hs1). lia.
      + apply dangles_oslot in Hd. destruct Hd as (z & Hd). apply (Os (a, k')) in Hd; [|exact Na]. destruct Hd as [[Ek _]|Hd].
        * assert (dangles s (a, 1 - k')) as Q.
          { apply (Pv n a k k' y); auto; [left; reflexivity|right; exact Ha|exact (oslot_dangles Hx)|rewrite Ek; exact Hp]. }
          apply dangles_oslot in Q. destruct Q as (w & Q). assert (w = e) as -> by (destruct Q; congruence). apply Same. apply (oslot_unique W Q Hs2).
        * apply Dg; [exact Nb|]. apply (Pv a b k' j e); auto; [right; exact Ha|right; exact Hb|exact (oslot_dangles Hd)].
    - intros Pr e He. rewrite dget_cons. rewrite Er. cbn beta. destruct (Nat.eqb_spec (phi e) x) as [Ex|Nx].
      + destruct (Nat.eqb_spec x e) as [<-|Nxe].
        * right. split; [reflexivity|]. exists p. split; [apply Of|]. intros Ip'. destruct p as [P j]. cbn [fst] in *.
          assert (j < 2) as Hj.
          { destruct (idn_shape G (or_intror Ip) Ip') as (_ & _ & _ & _ & _ & _ & _ & _ & _ & Z & _). destruct (le_lt_dec 2 j) as [K|K]; [rewrite (Z j K) in Hp; discriminate|exact K]. }
          assert (dangles s (P, 1 - j)) as Q. { apply (v_pairs V Pr (n := n) (m := P) (k := k) (j := j) (e := y)); auto; [left; reflexivity|right; exact Ip|exact (oslot_dangles Hx)]. }
          apply (Dg P _ Np) in Q. pose proof (oslot_dangles Of) as Q'. assert (j = 0 \/ j = 1) as [-> | ->] by lia; split; assumption.
        * exfalso. destruct (v_good V Pr He) as [[K _]|[_ (r & H2 & H3)]]; [congruence|].
          rewrite Ex in H2. pose proof (oslot_unique W Hx H2) as ->. cbn [fst] in H3. destruct (H3 Hid) as [K0 K1].
          assert (dangles s (n, 1 - k)) as Q by (assert (k = 0 \/ k = 1) as [-> | ->] by lia; assumption).
          apply dangles_oslot in Q. destruct Q as (w & Q). assert (w = y) as -> by (destruct Q; congruence). apply Np. rewrite (oslot_unique W Q Hp). reflexivity.
      + destruct (Nat.eqb_spec x e) as [<-|_]; [exfalso; apply (Key x He Nx eq_refl)|].
        destruct (v_good V Pr He) as [H|[H1 (r & H2 & H3)]]; [left; apply (Hw e He Nx H)|right].
        split; [exact H1|]. exists r. destruct (At e r He Nx H2) as [A1 A2]. split; [apply A2|]. apply St; [|exact H3]. destruct (phi_at G He H2) as [_ [Q|Q]]; [congruence|exact Q].
    - intros e He. rewrite dget_cons. rewrite Er. cbn beta.
      assert (forall y', dead s (n :: rest) dd y' -> dead s' rest ((x, f) :: dd) y') as Dead.
      { intros y' (m & j & h & D1 & D2 & D3 & D4 & D5). assert (m <> n) as Nm by (intros ->; apply D1; left; reflexivity).
        exists m, j, h. split; [intros K; apply D1; right; exact K|]. split; [exact D2|]. split; [apply Up; assumption|]. split; [apply Up; assumption|].
        intros e' [K|K]; [|apply (D5 e' K)]. injection K as _ <-. destruct (slot_lt W (proj1 D4)). lia. }
      destruct (Nat.eqb_spec (phi e) x) as [Ex|Nx].
      + destruct (Nat.eqb_spec x e) as [<-|Nxe]; [right; left; reflexivity|]. right. right.
        destruct (v_dict V He) as [[K _]|[H1|(y' & H1 & H2)]]; [congruence| |exists y'; split; [exact H1|apply Dead; exact H2]].
        exists x. split; [congruence|]. exists n, k, g. split; [intros K; apply (Hrn n K eq_refl)|]. split; [exact Hk|]. split; [|split].
        * destruct Hx as [X1 X2]. split; [|rewrite (ct_old C); [exact X2|apply (slot_lt W X1)]]. rewrite (cut_other C); [exact X1| |].
          -- intros K. apply Np. rewrite <- K. reflexivity.
          -- assert (k = 0 \/ k = 1) as [-> | ->] by lia; discriminate.
        * split; [apply (cut_q C)|apply (ct_eg C)]. intros K. apply Np. rewrite K. reflexivity.
        * intros e' [K|K]; [injection K as _ K; congruence|]. pose proof (v_range V K). lia.
      + destruct (Nat.eqb_spec x e) as [<-|_]; [exfalso; apply (Key x He Nx eq_refl)|].
        destruct (v_dict V He) as [H|[H1|(y' & H1 & H2)]]; [left; apply (Hw e He Nx H)|right; left; exact H1|right; right; exists y'; split; [exact H1|apply Dead; exact H2]].
    - intros e z [K|K]; [injection K as _ <-; lia|]. pose proof (v_range V K). pose proof (ct_ne C). lia.
  Qed.

  (** ** the trace of an identity *)
  Lemma inv_trace s s' phi n N todo nd dd t : inv s phi (n :: todo) nd dd -> idn n -> leaf s s' t N [] -> s_ne s <= s_ne s' -> (forall x, x < s_ne s -> s_edges s' x = s_edges s x) ->
    (forall k x r, slot s (n, k) = Some x -> slot s r = Some x -> fst r = n) -> (forall k x, ~ oslot s (n, k) x) ->
    (forall rest a, NoDup (n :: rest) -> (forall m, In m rest -> is_node s m) -> netval s (n :: rest) a = netval s' (N :: rest) a) ->
    inv s' phi todo ((n, N) :: nd) dd.
  Proof.
    intros V Hid L Ne Old Cl Lo Val. pose proof (v_geo V) as G. pose proof (g_wf G) as W. cbn [app] in G. set (rest := todo ++ map snd nd) in *.
    pose proof (geo_trace G L Ne Old Cl Lo Val) as G'. pose proof (g_wf G') as W'.
    assert (Permutation (N :: rest) (todo ++ map snd ((n, N) :: nd))) as P by (cbn; apply Permutation_middle).
    assert (forall m, In m (todo ++ map snd ((n, N) :: nd)) <-> In m (N :: rest)) as I by (intros m; split; apply Permutation_in; [symmetry; exact P|exact P]).
    assert (forall m, In m rest -> is_node s m /\ m <> n /\ m <> N) as Hrn by (intros m; apply (trace_rest G L)).
    assert (forall m k x, is_node s m -> oslot s' (m, k) x <-> oslot s (m, k) x) as Os by (intros m k x H; apply (trace_oslot L (r := (m, k))); exact H).
    assert (~ is_node s0 N) as NN.
    { intros Q. apply is_node_Some in Q. destruct Q as [d0 Q]. destruct (g_same G Q) as (d & Q' & _). apply (lf_fresh L). unfold is_node. congruence. }
    assert (~ idn N) as Nid by (intros Q; apply NN; apply (idn_node Q)).
    assert (forall m, is_node s m -> settled s m -> settled s' m) as St by (intros m Hm; apply settled_step; intros k x; apply Os; exact Hm).
    assert (forall e r, In e E -> slot s r = Some (phi e) -> fst r <> n /\ oslot s' r (phi e) /\ is_node s (fst r)) as At.
    { intros e r He Hr. destruct (phi_at G He Hr) as [Ho Hin]. assert (fst r <> n) as Q by (intros Q; destruct r as [n' j]; cbn in Q; subst n'; apply (Lo _ _ Ho)).
      assert (is_node s (fst r)) as Q' by (apply (g_node G); exact Hin). split; [exact Q|]. split; [destruct r; apply Os; assumption|exact Q']. }
    assert (forall e, In e E -> waiting s phi (n :: todo) e -> waiting s' phi todo e) as Hw.
    { intros e He (Q1 & r & Hr & Q2). rewrite <- Q1 in Q2. destruct (At e r He Q2) as (A1 & A2 & _). split; [exact Q1|]. exists r. split; [destruct Hr; [congruence|assumption]|]. rewrite <- Q1. apply A2. }
    split.
    - apply (geo_perm P G').
    - intros K. rewrite K in P. apply Permutation_sym, Permutation_nil in P. discriminate.
    - intros m Hm. apply (v_todo V). right. exact Hm.
    - pose proof (v_keys V) as K. cbn [map fst]. apply (Permutation_NoDup (l := map fst nd ++ n :: todo)); [symmetry; apply Permutation_middle|exact K].
    - intros m m' [H|H]; [injection H as <- <-; split; [apply (v_todo V); left; reflexivity|auto]|apply (v_fst V H)].
    - intros m Hm K. destruct (v_plain V Hm K) as [[<-|H]|H]; [contradiction|left; exact H|right; right; exact H].
    - intros m m' [H|H]; [injection H as _ <-; intros Q; contradiction|]. apply St; [|apply (v_done V H)]. apply Hrn. apply in_or_app. right. apply in_map_iff. exists (m, m'). auto.
    - intros Lk m Hm. apply I in Hm. destruct Hm as [<-|Hm].
      + right. right. destruct (v_link V Lk (m := n) (or_introl eq_refl)) as [(e & n1 & H1 & (j & H2) & H3)|[[H1 H2]|(r & H1 & H2)]].
        * exfalso. apply (trace_alone Cl) in H3. subst n1. assert (In e E) as He by (unfold q_edges; rewrite app_assoc; apply in_or_app; left; exact H1).
          destruct (At e (n, j) He H2) as (A1 & _). apply A1. reflexivity.
        * exists n. split; [exact H2|left; reflexivity].
        * exfalso. assert (In n rest) as K by (apply in_or_app; right; apply in_map_iff; exists (r, n); auto). apply Hrn in K. tauto.
      + destruct (v_link V Lk (or_intror Hm)) as [(e & n1 & H1 & (j & H2) & H3)|[[H1 H2]|(r & H1 & H2)]]; [left|right; left|right; right; exists r; split; [exact H1|right; exact H2]].
        * assert (In e E) as He by (unfold q_edges; rewrite app_assoc; apply in_or_app; left; exact H1). destruct (At e (n1, j) He H2) as (A1 & A2 & A3).
          exists e, n1. split; [exact H1|]. split; [exists j; apply A2|]. apply (trace_conn L); [exact A3|exact H3].
        * split; [|exact H2]. destruct H1 as [<-|H1]; [exfalso; apply Hrn in Hm; tauto|exact H1].
    - intros Pr a b k j e Ha Hb Ia Ib Hk Hj Hd Hs1 Hs2. apply I in Ha, Hb. destruct Ha as [<-|Ha]; [contradiction|]. destruct Hb as [<-|Hb]; [contradiction|].
      destruct (Hrn a Ha) as (Na & _), (Hrn b Hb) as (Nb & _). rewrite (kept_slot (p := (a, 1 - k)) (lf_kept L) Na) in Hs1. rewrite (kept_slot (p := (b, j)) (lf_kept L) Nb) in Hs2.
      apply dangles_oslot in Hd. destruct Hd as (z & Hd). apply (Os a k z Na) in Hd.
      assert (dangles s (b, 1 - j)) as Q. { apply (v_pairs V Pr (n := a) (m := b) (k := k) (j := j) (e := e)); auto; [right; exact Ha|right; exact Hb|exact (oslot_dangles Hd)]. }
      apply dangles_oslot in Q. destruct Q as (w & Q). apply (oslot_dangles (x := w)). apply Os; assumption.
    - intros Pr e He. destruct (v_good V Pr He) as [H|[H1 (r & H2 & H3)]]; [left; apply (Hw e He H)|right].
      split; [exact H1|]. exists r. destruct (At e r He H2) as (A1 & A2 & A3). split; [apply A2|]. apply St; assumption.
    - intros e He. destruct (v_dict V He) as [H|[H1|(y & H1 & (m & j & h & D1 & D2 & D3 & D4 & D5))]]; [left; apply (Hw e He H)|right; left; exact H1|right; right].
      exists y. split; [exact H1|]. assert (is_node s m) as Nm by (apply (on_node (e := y)); exists j; apply D3).
      exists m, j, h. split; [intros K; apply I in K; destruct K as [<-|K]; [apply (lf_fresh L Nm)|apply D1; right; exact K]|]. split; [exact D2|].
      split; [apply Os; assumption|]. split; [apply Os; assumption|exact D5].
    - intros e x H. pose proof (v_range V H). lia.
  Qed.

  (** ** one turn *)
  Lemma keep_ok s phi n todo D : inv s phi (n :: todo) (fst D) (snd D) -> settled s n -> exists D', keep_node n D s = (s, Some D') /\ inv s phi todo (fst D') (snd D').
  Proof.
    intros V Hs. pose proof (v_geo V) as G. destruct (@get_all_dangling_spec R s [n] (g_wf G)) as (l & Hl & Hin & _).
    { intros m [<-|[]]. apply (g_node G). left. reflexivity. }
    eexists. split; [unfold keep_node, bind; rewrite Hl; reflexivity|]. cbn [fst snd]. apply inv_keep; [exact V|exact Hs|].
    intros x. rewrite Hin. split; [intros (m & [<-|[]] & K); exact K|intros K; exists n; split; [left; reflexivity|exact K]].
  Qed.
  Lemma step_ok s phi n todo D : inv s phi (n :: todo) (fst D) (snd D) ->
    exists s' phi' D', elim_node (q_cps q) n D s = (s', Some D') /\ inv s' phi' todo (fst D') (snd D').
  Proof.
    intros V. pose proof (v_geo V) as G. pose proof (g_wf G) as W. assert (In n ((n :: todo) ++ map snd (fst D))) as Hn by (left; reflexivity).
    pose proof (g_node G Hn) as Nn. apply is_node_Some in Nn. destruct Nn as [nd Nn].
    assert (mem n (q_cps q) && Nat.eqb (rank (n_t nd)) 2 = true <-> idn n) as Hidn.
    { split.
      - intros K. apply andb_true_iff in K. destruct K as [K1 K2]. apply mem_In in K1. apply Nat.eqb_eq in K2. split; [exact K1|].
        pose proof (op_node O0 (op_cps O0 K1)) as Q. apply is_node_Some in Q. destruct Q as [d0 Q]. exists d0. split; [exact Q|].
        destruct (g_same G Q) as (d & Q1 & Q2 & _). assert (d = nd) as -> by congruence. rewrite <- Q2. exact K2.
      - intros [K1 (d0 & Q & K2)]. destruct (g_same G Q) as (d & Q1 & Q2 & _). assert (d = nd) as -> by congruence. apply mem_In in K1. rewrite K1, Q2, K2. reflexivity. }
    assert (elim_node (q_cps q) n D s = (if mem n (q_cps q) && Nat.eqb (rank (n_t nd)) 2 then
      bind (edge_of n 0) (fun e0 => bind (edge_of n 1) (fun e1 => bind (get_edge e0) (fun d0 => bind (get_edge e1) (fun d1 =>
      if is_dangling d0 && is_dangling d1 then keep_node n D else drop_node n e0 e1 (nth 0 (shape (n_t nd)) 0) D)))) else keep_node n D) s) as ->
      by (unfold elim_node, bind at 1, get_node; rewrite Nn; reflexivity).
    destruct (mem n (q_cps q) && Nat.eqb (rank (n_t nd)) 2) eqn:Q.
    2:{ destruct (keep_ok V) as (D' & H1 & H2); [intros K; apply Hidn in K; discriminate|]. exists s, phi, D'. auto. }
    clear Q. pose proof (proj1 Hidn eq_refl) as Q. destruct (idn_shape G Hn Q) as (nd' & d & e0 & e1 & H1 & H2 & H3 & S0 & S1 & S2 & H4 & _). assert (nd' = nd) as -> by congruence. rewrite H4.
    destruct (wf_slot W S0) as (d0 & Ed0 & Dd0 & _), (wf_slot W S1) as (d1 & Ed1 & Dd1 & _).
    assert (dimat s (n, 0) = Some d /\ dimat s (n, 1) = Some d) as [Di0 Di1] by (destruct H2 as (_ & Hsh & _); unfold dimat; cbn; rewrite Nn, Hsh; split; reflexivity).
    unfold bind at 1. rewrite (edge_of_slot S0). unfold bind at 1. rewrite (edge_of_slot S1). unfold bind at 1. rewrite (get_edge_ok Ed0 Dd0). unfold bind at 1. rewrite (get_edge_ok Ed1 Dd1).
    assert (forall k x dx, k < 2 -> slot s (n, k) = Some x -> s_edges s x = Some dx -> e_dis dx = false ->
      (is_dangling dx = true /\ oslot s (n, k) x) \/ (is_dangling dx = false /\ exists p, p <> (n, k) /\ slot s p = Some x /\ forall r, slot s r = Some x -> r = (n, k) \/ r = p)) as Cs.
    { intros k x dx Hk Hs He Hd. destruct (slot_partner W Hs He) as [(K1 & K2 & _)|(p & K1 & K2 & K3 & K4)].
      - left. split; [unfold is_dangling; rewrite K1; reflexivity|]. split; [exact Hs|]. rewrite He. destruct dx as [a b c u]. cbn in *. injection K2 as -> ->. subst. reflexivity.
      - right. split; [|exists p; split; [congruence|auto]]. unfold is_dangling. destruct (e_2 dx) eqn:Q2; [reflexivity|].
        exfalso. unfold ends in K3. rewrite Q2 in K3. apply Permutation_length in K3. discriminate. }
    destruct (Cs 0 e0 d0 ltac:(lia) S0 Ed0 Dd0) as [[C0 O0']|[C0 (p0 & P0 & P0s & P0u)]], (Cs 1 e1 d1 ltac:(lia) S1 Ed1 Dd1) as [[C1 O1']|[C1 (p1 & P1 & P1s & P1u)]];
      rewrite C0, C1; cbn [andb].
    - destruct (keep_ok V) as (D' & K1 & K2); [intros _; split; eapply oslot_dangles; eassumption|]. exists s, phi, D'. auto.
    - assert (fst p1 <> n) as Np.
      { intros K. destruct p1 as [m j]. cbn in K. subst m. destruct j as [|[|j]]; [|apply P1; reflexivity|rewrite S2 in P1s by lia; discriminate].
        assert (e1 = e0) as K by congruence. rewrite K in S1. pose proof (oslot_unique W O0' S1). discriminate. }
      destruct (@trim_ok R s n nd d e0 e1 0 p1 e0 e1 D W Nn H2 H3 ltac:(lia) S0 (proj2 O0') S1 P1s Np) as (s' & f & g & E1 & C & Val).
      exists s', (redirect phi e0 f), (fst D, (e0, f) :: snd D). split; [exact E1|]. cbn [fst snd].
      apply (@inv_trim s s' phi n todo (fst D) (snd D) 0 p1 e0 e1 f g V Q C ltac:(lia) O0' S1 S2 P1s Np); [cbn; congruence|exact Val].
    - assert (fst p0 <> n) as Np.
      { intros K. destruct p0 as [m j]. cbn in K. subst m. destruct j as [|[|j]]; [apply P0; reflexivity| |rewrite S2 in P0s by lia; discriminate].
        assert (e1 = e0) as K by congruence. rewrite <- K in S0. pose proof (oslot_unique W O1' S0). discriminate. }
      destruct (@trim_ok R s n nd d e0 e1 1 p0 e1 e0 D W Nn H2 H3 ltac:(lia) S1 (proj2 O1') S0 P0s Np) as (s' & f & g & E1 & C & Val).
      exists s', (redirect phi e1 f), (fst D, (e1, f) :: snd D). split; [exact E1|]. cbn [fst snd].
      apply (@inv_trim s s' phi n todo (fst D) (snd D) 1 p0 e1 e0 f g V Q C ltac:(lia) O1' S0 S2 P0s Np); [cbn; congruence|exact Val].
    - destruct (Nat.eq_dec e0 e1) as [K|K].
      + subst e1. destruct (trace_of_one_ok D W Nn H2 H3) as (s' & N & E1 & L & Ne & Old & Val). exists s', phi, ((n, N) :: fst D, snd D). split; [exact E1|]. cbn [fst snd].
        assert (p0 = (n, 1)) as -> by (destruct (P0u _ S1); congruence). assert (forall k x, slot s (n, k) = Some x -> x = e0) as Hx.
        { intros k x Hk. destruct k as [|[|k]]; [congruence|congruence|rewrite S2 in Hk by lia; discriminate]. }
        apply (inv_trace V Q L Ne Old); [| |exact Val].
        * intros k x r Hk Hr. rewrite (Hx k x Hk) in Hr. destruct (P0u _ Hr) as [-> | ->]; reflexivity.
        * intros k x Ho. pose proof (Hx k x (proj1 Ho)) as ->. pose proof (oslot_unique W Ho S0) as Z1. pose proof (oslot_unique W Ho S1) as Z2. congruence.
      + assert (fst p0 <> n) as N0.
        { intros Z. destruct p0 as [m j]. cbn in Z. subst m. destruct j as [|[|j]]; [apply P0; reflexivity|congruence|rewrite S2 in P0s by lia; discriminate]. }
        assert (fst p1 <> n) as N1.
        { intros Z. destruct p1 as [m j]. cbn in Z. subst m. destruct j as [|[|j]]; [congruence|apply P1; reflexivity|rewrite S2 in P1s by lia; discriminate]. }
        destruct (splice_ok D W Nn H2 H3 P0s P1s N0 N1) as (s' & g & E1 & Sp). exists s', phi, D. split; [exact E1|].
        apply (inv_splice V Q Sp S0 S1 S2 P0s P1s N0 N1). congruence.
  Qed.

  (** ** the loop *)
  Lemma loop_ok todo : forall s phi D, inv s phi todo (fst D) (snd D) -> exists s' phi' D', eliminate (q_cps q) todo D s = (s', Some D') /\ inv s' phi' [] (fst D') (snd D').
  Proof.
    induction todo as [|n todo IH]; intros s phi D V; cbn [eliminate]; [exists s, phi, D; auto|].
    destruct (step_ok V) as (s1 & phi1 & D1 & E1 & V1). destruct (IH s1 phi1 D1 V1) as (s2 & phi2 & D2 & E2 & V2).
    exists s2, phi2, D2. split; [unfold bind; rewrite E1; exact E2|exact V2].
  Qed.
  Lemma geo_start : geo s0 (fun e => e) ns.
  Proof.
    split; auto.
    - apply (op_nodup O0).
    - apply (op_node O0).
    - apply (op_named O0).
    - intros r r' x Hr H1 H2. apply (oper_closed (n := fst r) (e := x) O0 Hr); [exists (snd r)|exists (snd r')]; rewrite <- surjective_pairing; assumption.
    - intros m d0 H. exists d0. auto.
    - intros x. split.
      + intros (e & He & <-). apply (op_open O0) in He. destruct He as (n & Hn & Ho). apply (open_oslot n e W0) in Ho. destruct Ho as (k & Ho). exists (n, k). auto.
      + intros (r & Hr & Ho). exists x. split; [|reflexivity]. apply (op_open O0). exists (fst r). split; [exact Hr|]. apply (open_oslot _ x W0). exists (snd r). rewrite <- surjective_pairing. exact Ho.
    - intros a b Ha Hb. apply netval_ext_asg. intros x Hx. apply (count_open W0) in Hx; [|intros n m f; apply (oper_closed O0)]. apply (op_open O0) in Hx. rewrite (Hb x Hx). reflexivity.
  Qed.
  Lemma inv_start todo : Permutation ns todo -> inv s0 (fun e => e) todo [] [].
  Proof.
    intros P. assert (forall m, In m todo <-> In m ns) as I by (intros m; split; apply Permutation_in; [symmetry; exact P|exact P]).
    assert (forall e, In e E -> waiting s0 (fun e => e) todo e) as Hw.
    { intros e He. split; [reflexivity|]. apply (op_open O0) in He. destruct He as (n & Hn & k & Hk & _). exists (n, k). split; [apply I; exact Hn|exact Hk]. }
    split; cbn [map app]; rewrite ?app_nil_r; auto.
    - apply (geo_perm P), geo_start.
    - intros ->. apply (op_some O0). apply Permutation_nil, Permutation_sym, P.
    - intros n. apply I.
    - apply (Permutation_NoDup P), (op_nodup O0).
    - intros n m [].
    - intros n Hn _. left. apply I. exact Hn.
    - intros n m [].
    - intros L m Hm. destruct (L m (proj1 (I m) Hm)) as [H|H]; [right; left; auto|left; exact H].
    - intros Pr n m k j e _ _. apply Pr.
    - intros e x [].
  Qed.
  Theorem eliminate_inv todo : Permutation ns todo -> exists s' phi D, eliminate (q_cps q) todo ([], []) s0 = (s', Some D) /\ inv s' phi [] (fst D) (snd D).
  Proof. intros P. exact (loop_ok (D := ([], [])) (inv_start P)). Qed.
End Loop.
