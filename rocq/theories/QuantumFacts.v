(** * QuantumFacts: operators under changes of the heap *)
From Verif Require Import Prelude Algebra Tensor Einsum EinsumFacts NetworkFacts Graph GraphBase GraphConnect GraphContract GraphValue GraphQuery GraphQueryFacts GraphCopy GraphCopyFacts GraphDensity Quantum QuantumSpec.
Set Implicit Arguments.
Unset Strict Implicit.

Section QF.
  Context {R : cjr}.
  Notation st := (@st R).
  Implicit Types (s : st) (q : quop) (e : eid) (n m : nid).

  (** ** kept *)
  Lemma kept_slot s s' p : kept s s' -> is_node s (fst p) -> slot s' p = slot s p.
  Proof. intros K H. unfold slot. rewrite (k_nodes K H). reflexivity. Qed.
  Lemma kept_on s s' n e : kept s s' -> is_node s n -> on s' n e <-> on s n e.
  Proof. intros K H. unfold on. split; intros (k & Hk); exists k; [rewrite <- (@kept_slot s s' (n, k) K H)|rewrite (@kept_slot s s' (n, k) K H)]; exact Hk. Qed.
  Lemma kept_node s s' n : kept s s' -> is_node s n -> is_node s' n.
  Proof. intros K H. unfold is_node in *. rewrite (k_nodes K H). exact H. Qed.
  Lemma kept_refl s : kept s s.
  Proof. split; auto. intros m n e _ _ H. apply (on_node H). Qed.
  Lemma kept_trans s s1 s2 : kept s s1 -> kept s1 s2 -> kept s s2.
  Proof.
    intros K1 K2. split.
    - intros m Hm. rewrite (k_nodes K2) by apply (kept_node K1 Hm). apply (k_nodes K1 Hm).
    - intros m e H. rewrite (k_edges K2 (m := m)); [apply (k_edges K1 H)|]. apply (kept_on e K1); [apply (on_node H)|exact H].
    - intros m n e Hm Ho Hn. pose proof (kept_node K1 Hm) as Hm1.
      apply (kept_on e K2 Hm1) in Ho. pose proof (k_sep K2 Hm1 (proj2 (kept_on e K2 Hm1) Ho) Hn) as Hn1.
      apply (kept_on e K2 Hn1) in Hn. apply (k_sep K1 Hm Ho Hn).
  Qed.
  Lemma kept_conn s s' n m : kept s s' -> is_node s n -> connected s' n m <-> connected s n m.
  Proof.
    intros K Hn. split; intros H.
    - assert (connected s n m /\ is_node s m) as [Q _]; [|exact Q]. induction H as [n|n m l e H IH H1 H2]; [split; [constructor|exact Hn]|].
      destruct (IH Hn) as [C Hm]. pose proof (k_sep K Hm H1 H2) as Hl. split; [|exact Hl].
      apply conn_step with (m := m) (e := e); [exact C| |]; apply (kept_on e K); assumption.
    - induction H as [n|n m l e H IH H1 H2]; [constructor|]. apply conn_step with (m := m) (e := e); [exact (IH Hn)| |];
        (apply (kept_on e K); [eapply on_node; eassumption|assumption]).
  Qed.
  Lemma kept_open s s' n e : kept s s' -> is_node s n -> open_on s' n e <-> open_on s n e.
  Proof.
    intros K Hn. split; intros (k & Hk & Hu); exists k.
    - rewrite (@kept_slot s s' (n, k) K Hn) in Hk. split; [exact Hk|]. intros p Hp. apply Hu.
      rewrite (@kept_slot s s' p K); [exact Hp|]. destruct p as [x j]. apply (@on_node _ s x e). exists j. exact Hp.
    - split; [rewrite (@kept_slot s s' (n, k) K Hn); exact Hk|]. intros [x j] Hp.
      assert (is_node s x) as Hx.
      { apply (@k_sep _ s s' K n x e Hn); [exists k; rewrite (@kept_slot s s' (n, k) K Hn); exact Hk|exists j; exact Hp]. }
      apply Hu. rewrite <- (@kept_slot s s' (x, j) K Hx). exact Hp.
  Qed.
  Lemma kept_edim s s' n e : wf s -> wf s' -> kept s s' -> on s n e -> edim s' e = edim s e.
  Proof.
    intros W W' K (k & Hk). pose proof (on_node (ex_intro _ k Hk)) as Hn. fold (@on R s n e) in *.
    pose proof (edim_dimat W Hk) as D1. assert (slot s' (n, k) = Some e) as Hk' by (rewrite (@kept_slot s s' (n, k) K Hn); exact Hk).
    pose proof (edim_dimat W' Hk') as D2. unfold dimat in *. cbn [fst snd] in *. rewrite (k_nodes K Hn) in D2. congruence.
  Qed.
  Lemma kept_netval s s' ns a : wf s -> wf s' -> kept s s' -> (forall n, In n ns -> is_node s n) -> netval s' ns a = netval s ns a.
  Proof.
    intros W W' K H. unfold netval. rewrite (@net_of_ext _ s s' ns) by (intros m Hm; apply (k_nodes K (H m Hm))).
    apply value_ext_dim. intros x Hx. apply In_net_labels in Hx. destruct Hx as (n & Hn & Ho). apply (kept_edim W W' K Ho).
  Qed.
  Lemma kept_oper s s' q ns : kept s s' -> oper s q ns -> oper s' q ns.
  Proof.
    intros K O. split.
    - apply (op_nodup O).
    - intros m. rewrite (op_nodes O). split.
      + intros (n & Hn & C). assert (is_node s n) as Q.
        { apply (op_node O). apply (op_nodes O). exists n. split; [exact Hn|constructor]. }
        exists n. split; [|apply (kept_conn m K Q), C]. destruct Hn as [(e & He & Ho)|Hn]; [left; exists e; split; [exact He|apply (kept_on e K Q), Ho]|right; exact Hn].
      + intros (n & Hn & C). assert (is_node s n) as Q.
        { destruct Hn as [(e & He & Ho)|Hn]; [|apply (op_node O), (op_nodes O); exists n; split; [right; exact Hn|constructor]].
          assert (In e (q_edges q)) as Hq by (unfold q_edges; rewrite app_assoc; apply in_or_app; left; exact He).
          apply (op_open O) in Hq. destruct Hq as (x & Hx & k & Hk & _). pose proof (op_node O Hx) as Nx.
          apply (@k_sep _ s s' K x n e Nx); [exists k; rewrite (@kept_slot s s' (x, k) K Nx); exact Hk|exact Ho]. }
        exists n. split; [|apply (kept_conn m K Q), C]. destruct Hn as [(e & He & Ho)|Hn]; [left; exists e; split; [exact He|apply (kept_on e K Q), Ho]|right; exact Hn].
    - apply (op_edges O).
    - intros e. rewrite (op_open O). split; intros (n & Hn & Ho); exists n; (split; [exact Hn|]); apply (kept_open e K (op_node O Hn)), Ho.
    - apply (op_some O).
    - intros n Hn. apply (kept_node K (op_node O Hn)).
    - intros n Hn nd Hnd. rewrite (k_nodes K (op_node O Hn)) in Hnd. apply (op_named O Hn Hnd).
    - apply (op_cps O).
  Qed.
  Lemma kept_copyable s s' q ns : kept s s' -> oper s q ns -> copyable s q -> copyable s' q.
  Proof.
    intros K O C n e ed a2 Hn Ho He H1 H2. pose proof (op_node O (op_cps O Hn)) as Q. apply (kept_on e K Q) in Ho.
    rewrite (k_edges K Ho) in He. apply (C n e ed a2); assumption.
  Qed.

  (** ** operators *)
  Lemma oper_perm s q ns ns' : Permutation ns ns' -> oper s q ns -> oper s q ns'.
  Proof.
    intros P O. assert (forall x, In x ns' <-> In x ns) as E by (intros x; split; apply Permutation_in; [apply Permutation_sym|]; exact P). split.
    - apply (Permutation_NoDup P), (op_nodup O).
    - intros m. rewrite E. apply (op_nodes O).
    - apply (op_edges O).
    - intros e. rewrite (op_open O). split; intros (n & Hn & H); exists n; (split; [apply E, Hn|exact H]).
    - intros ->. apply (op_some O). apply Permutation_nil. apply Permutation_sym. exact P.
    - intros n Hn. apply (op_node O), E, Hn.
    - intros n Hn. apply (op_named O), E, Hn.
    - intros n Hn. apply E, (op_cps O Hn).
  Qed.
  Lemma oper_unique s q ns ns' : oper s q ns -> oper s q ns' -> Permutation ns ns'.
  Proof.
    intros O O'. apply NoDup_Permutation; [apply (op_nodup O)|apply (op_nodup O')|]. intros x. rewrite (op_nodes O), (op_nodes O'). reflexivity.
  Qed.
  Lemma oper_closed s q ns n m e : oper s q ns -> In n ns -> on s n e -> on s m e -> In m ns.
  Proof.
    intros O Hn H1 H2. apply (op_nodes O) in Hn. destruct Hn as (x & Hx & C). apply (op_nodes O). exists x. split; [exact Hx|].
    apply conn_step with (m := n) (e := e); assumption.
  Qed.
  Lemma oper_edge_on s q ns e : oper s q ns -> In e (q_edges q) -> exists n, In n ns /\ on s n e.
  Proof. intros O He. apply (op_open O) in He. destruct He as (n & Hn & k & Hk & _). exists n. split; [exact Hn|]. exists k. exact Hk. Qed.

  Lemma count_open s ns e : wf s -> (forall n m f, In n ns -> on s n f -> on s m f -> In m ns) ->
    count_occ Nat.eq_dec (net_labels (net_of s ns)) e = 1 -> exists n, In n ns /\ open_on s n e.
  Proof.
    intros W Cl H1. assert (In e (net_labels (net_of s ns))) as Hin by (apply (count_occ_In Nat.eq_dec); lia).
    apply In_net_labels in Hin. destruct Hin as (n & Hn & Ho). destruct (on_edge W Ho) as (ed & He & _).
    destruct (kinds W Ho He) as [(_ & _ & K & _)|(m & a2 & _ & (p & q & Hpq & Hp & Hq & Sp & Sq) & _)]; [exists n; auto|]. exfalso.
    destruct p as [x i], q as [y j]. cbn in Hp, Hq. subst.
    assert (In (e_n1 ed) ns) as Hx by (apply (Cl n (e_n1 ed) e Hn Ho); exists i; exact Sp).
    assert (In m ns) as Hy by (apply (Cl n m e Hn Ho); exists j; exact Sq).
    destruct (Nat.eq_dec (e_n1 ed) m) as [E|E].
    { rewrite E in Sp. assert (i <> j) as Hij by congruence. pose proof (trace_count Hy Sp Sq Hij). lia. }
    apply in_split in Hx. destruct Hx as (l1 & l2 & ->).
    assert (In m (l1 ++ l2)) as Hy' by (apply in_app_or in Hy; apply in_or_app; cbn in Hy; destruct Hy as [Hy|[Hy|Hy]]; auto; congruence).
    assert (1 <= count_occ Nat.eq_dec (net_labels (net_of s [e_n1 ed])) e) as C1.
    { apply (count_occ_In Nat.eq_dec). apply In_net_labels. exists (e_n1 ed). split; [left; reflexivity|]. exists i. exact Sp. }
    assert (1 <= count_occ Nat.eq_dec (net_labels (net_of s (l1 ++ l2))) e) as C2.
    { apply (count_occ_In Nat.eq_dec). apply In_net_labels. exists m. split; [exact Hy'|]. exists j. exact Sq. }
    pose proof (cnt_perm Nat.eq_dec e (net_of_perm s (Permutation_middle l1 l2 (e_n1 ed)))) as C3.
    unfold net_labels, net_of in *. cbn [map flat_map] in *. rewrite app_nil_r in C1. rewrite count_occ_app in C3. lia.
  Qed.

  (** the value depends on the indices of the operator's edges only *)
  Lemma binds_map (a b : nat -> nat) (es : list nat) x : NoDup es -> In x es -> binds Nat.eq_dec b es (map a es) x = a x.
  Proof.
    revert b. induction es as [|e es IH]; intros b HN Hx; [destruct Hx|]. cbn [map binds]. apply NoDup_cons_iff in HN. destruct HN as [He HN]. destruct Hx as [->|Hx].
    - rewrite binds_other by exact He. apply upd_same.
    - apply IH; assumption.
  Qed.
  Lemma opval_asg s q ns a : wf s -> oper s q ns -> opval s ns q (map a (q_edges q)) = netval s ns a.
  Proof.
    intros W O. unfold opval. apply netval_ext_asg. intros x Hx.
    apply (count_open W) in Hx; [|intros n m f; apply (oper_closed O)]. apply (op_open O) in Hx. apply binds_map; [apply (op_edges O)|exact Hx].
  Qed.
  Lemma map_binds (b : nat -> nat) (es vs : list nat) : NoDup es -> length vs = length es -> map (binds Nat.eq_dec b es vs) es = vs.
  Proof.
    revert b vs. induction es as [|e es IH]; intros b [|v vs] HN HL; try discriminate; [reflexivity|]. cbn [map binds]. apply NoDup_cons_iff in HN. destruct HN as [He HN].
    f_equal; [rewrite binds_other by exact He; apply upd_same|]. apply IH; [exact HN|]. injection HL as HL. exact HL.
  Qed.
  Lemma entry_asg s q ns i j g a : wf s -> oper s q ns -> map a (q_out q) = i -> map a (q_in q) = j -> map a (q_ign q) = g ->
    entry s ns q i j g = netval s ns a.
  Proof.
    intros W O <- <- <-. unfold entry. rewrite <- !map_app. apply (opval_asg a W O).
  Qed.
  (** and every choice of indices is an assignment *)
  Lemma entry_exists s q ns i j g : wf s -> oper s q ns -> length i = length (q_out q) -> length j = length (q_in q) -> length g = length (q_ign q) ->
    exists a, map a (q_out q) = i /\ map a (q_in q) = j /\ map a (q_ign q) = g /\ entry s ns q i j g = netval s ns a.
  Proof.
    intros W O Hi Hj Hg. exists (binds Nat.eq_dec (fun _ => 0) (q_edges q) (i ++ j ++ g)).
    pose proof (@map_binds (fun _ => 0) (q_edges q) (i ++ j ++ g) (op_edges O)) as E.
    assert (length (i ++ j ++ g) = length (q_edges q)) as HL by (unfold q_edges; rewrite !app_length; lia).
    specialize (E HL). clear HL. set (a := binds Nat.eq_dec (fun _ => 0) (q_edges q) (i ++ j ++ g)) in *. clearbody a. unfold q_edges in E. rewrite !map_app in E.
    assert (forall (A : Type) (l1 l2 m1 m2 : list A), length l1 = length m1 -> l1 ++ l2 = m1 ++ m2 -> l1 = m1 /\ l2 = m2) as App.
    { clear. induction l1 as [|x l1 IH]; intros l2 [|y m1] m2 HL E; try discriminate; [auto|]. cbn in E. injection E as -> E.
      destruct (IH l2 m1 m2) as [-> ->]; [injection HL as HL; exact HL|exact E|auto]. }
    apply App in E; [|rewrite map_length; congruence]. destruct E as [E1 E]. apply App in E; [|rewrite map_length; congruence]. destruct E as [E2 E3].
    repeat split; try assumption. apply (entry_asg W O); assumption.
  Qed.
  Lemma entry_perm s q ns ns' i j g : Permutation ns ns' -> entry s ns q i j g = entry s ns' q i j g.
  Proof. intros P. apply netval_perm, P. Qed.
  Lemma kept_entry s s' q ns i j g : wf s -> wf s' -> kept s s' -> oper s q ns -> entry s' ns q i j g = entry s ns q i j g.
  Proof. intros W W' K O. apply kept_netval; auto. apply (op_node O). Qed.
End QF.
