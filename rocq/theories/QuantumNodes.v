(** * QuantumNodes: the nodes of an operator and the consistency check *)
From Verif Require Import Prelude Algebra Tensor Einsum EinsumFacts NetworkFacts Graph GraphBase GraphConnect GraphContract GraphValue GraphQuery GraphQueryFacts GraphCopy GraphCopyFacts GraphDensity Quantum QuantumSpec QuantumFacts.
Set Implicit Arguments.
Unset Strict Implicit.

Section QN.
  Context {R : cjr}.
  Notation st := (@st R).
  Variable iter : list nat -> list nat.
  Hypothesis iter_perm : forall l, Permutation (iter l) l.
  Implicit Types (s : st) (q : quop) (e : eid) (n m : nid).

  Lemma q_nodes_spec s q : wf s -> (forall e, In e (q_out q ++ q_in q) -> exists n, on s n e) -> (forall n, In n (q_ref q) -> is_node s n) ->
    q_out q ++ q_in q <> [] \/ q_ref q <> [] ->
    exists l, q_nodes iter q s = (s, Some l) /\ NoDup l /\ (forall n, In n l -> is_node s n) /\
      forall m, In m l <-> exists n, ((exists e, In e (q_out q ++ q_in q) /\ on s n e) \/ In n (q_ref q)) /\ connected s n m.
  Proof.
    intros W He Hr Hne. unfold q_nodes. destruct (get_all_nodes_spec iter_perm W He) as (l0 & H0 & _ & Hl0).
    destruct (@reachable_spec _ iter iter_perm s (l0 ++ q_ref q) W) as (l & H1 & Hnd & Hl).
    { intros K. apply app_eq_nil in K. destruct K as [-> K]. destruct Hne as [Hne|Hne]; [|contradiction].
      destruct (q_out q ++ q_in q) as [|e r]; [congruence|]. destruct (He e (or_introl eq_refl)) as [n Hn].
      apply (Hl0 n). exists e. split; [left; reflexivity|exact Hn]. }
    { intros n Hn. apply in_app_or in Hn. destruct Hn as [Hn|Hn]; [|apply Hr, Hn]. apply Hl0 in Hn. destruct Hn as (e & _ & Ho). apply (on_node Ho). }
    assert (forall m, In m l <-> exists n, ((exists e, In e (q_out q ++ q_in q) /\ on s n e) \/ In n (q_ref q)) /\ connected s n m) as Hm.
    { intros m. rewrite Hl. split; intros (n & Hn & C); exists n; (split; [|exact C]).
      - apply in_app_or in Hn. destruct Hn as [Hn|Hn]; [left; apply Hl0, Hn|right; exact Hn].
      - apply in_or_app. destruct Hn as [Hn|Hn]; [left; apply Hl0, Hn|right; exact Hn]. }
    exists l. unfold bind. rewrite H0, H1. split; [reflexivity|]. split; [exact Hnd|]. split; [|exact Hm].
    intros n Hn. apply Hm in Hn. destruct Hn as (x & Hx & C).
    assert (is_node s x) as Nx by (destruct Hx as [(e & _ & Ho)|Hx]; [apply (on_node Ho)|apply Hr, Hx]).
    clear - C Nx. induction C; [exact Nx|apply (on_node H0)].
  Qed.

  Lemma q_nodes_ok s q ns : wf s -> oper s q ns -> exists l, q_nodes iter q s = (s, Some l) /\ Permutation ns l /\ oper s q l.
  Proof.
    intros W O. destruct (@q_nodes_spec s q W) as (l & H & Hnd & _ & Hl).
    - intros e He. destruct (@oper_edge_on _ s q ns e O) as (n & _ & Hn); [unfold q_edges; rewrite app_assoc; apply in_or_app; left; exact He|eauto].
    - intros n Hn. apply (op_node O), (op_nodes O). exists n. split; [right; exact Hn|constructor].
    - destruct (q_out q ++ q_in q) as [|e r] eqn:E; [|left; discriminate]. right. intros K. pose proof (op_some O) as Hs.
      destruct ns as [|n r]; [congruence|]. pose proof (proj1 (op_nodes O n) (or_introl eq_refl)) as (x & [(e & He & _)|Hx] & _); [rewrite E in He; destruct He|rewrite K in Hx; destruct Hx].
    - assert (Permutation ns l) as P.
      { apply NoDup_Permutation; [apply (op_nodup O)|exact Hnd|]. intros x. rewrite (op_nodes O), Hl. reflexivity. }
      exists l. split; [exact H|]. split; [exact P|]. apply (oper_perm P O).
  Qed.

  Lemma same_set_spec l l' : same_set l l' = true <-> forall x, In x l <-> In x l'.
  Proof.
    unfold same_set. rewrite andb_true_iff, !forallb_forall. split.
    - intros [H1 H2] x. split; intros Hx; apply mem_In; auto.
    - intros H. split; intros x Hx; apply mem_In, H, Hx.
  Qed.

  Lemma oper_closed_dangling s q ns e : oper s q ns -> (exists n, In n ns /\ (open_on s n e \/ exists m, ~ In m ns /\ between s n m e)) <-> In e (q_edges q).
  Proof.
    intros O. rewrite (op_open O). split.
    - intros (n & Hn & [H|(m & Hm & (p & p' & _ & <- & <- & H1 & H2))]); [eauto|]. exfalso. apply Hm. apply (@oper_closed _ s q ns (fst p) (fst p') e O Hn); [exists (snd p)|exists (snd p')];
        rewrite <- surjective_pairing; assumption.
    - intros (n & Hn & H). exists n. auto.
  Qed.

  Lemma check_network_ok s q ns : wf s -> oper s q ns -> check_network iter q s = (s, Some tt).
  Proof.
    intros W O. unfold check_network. unfold bind at 1.
    replace (forallb (edge_dangling s) (q_out q ++ q_in q ++ q_ign q)) with true.
    2:{ symmetry. apply forallb_forall. intros e He. apply (op_open O) in He. destruct He as (n & _ & Ho).
        apply (edge_dangling_spec (n := n) W); [destruct Ho as (k & Hk & _); exists k; exact Hk|exact Ho]. }
    cbn [guard]. destruct (q_nodes_ok W O) as (l & H1 & P & O'). unfold ret, bind at 1. rewrite H1.
    destruct (get_subgraph_dangling_spec iter_perm W (op_node O')) as (ds & H2 & _ & Hds). unfold bind. rewrite H2.
    replace (same_set (q_in q ++ q_out q ++ q_ign q) ds) with true; [reflexivity|]. symmetry. apply same_set_spec. intros x.
    rewrite Hds, (oper_closed_dangling x O'). unfold q_edges. rewrite !in_app_iff. tauto.
  Qed.
  Lemma construct_ok s q ns : wf s -> oper s q ns -> construct iter q s = (s, Some q).
  Proof.
    intros W O. unfold construct. replace (match q_out q with [] => _ | _ => _ end) with false.
    - cbn [negb guard]. unfold bind, ret. rewrite (check_network_ok W O). reflexivity.
    - symmetry. destruct (q_out q) eqn:E1; [|reflexivity]. destruct (q_in q) eqn:E2; [|reflexivity]. destruct (q_ref q) eqn:E3; [|reflexivity]. exfalso.
      pose proof (op_some O) as Hs. destruct ns as [|n r]; [congruence|]. pose proof (proj1 (op_nodes O n) (or_introl eq_refl)) as (x & [(e & He & _)|Hx] & _).
      + rewrite E1, E2 in He. destruct He.
      + rewrite E3 in Hx. destruct Hx.
  Qed.

  (** ** the check accepts nothing else *)
  Lemma mmap_ro A B (f : A -> @M R B) l : (forall x s, fst (f x s) = s) -> forall s, fst (mmap f l s) = s.
  Proof.
    intros H. induction l as [|x r IH]; intros s; [reflexivity|]. cbn [mmap]. unfold bind. specialize (H x s). destruct (f x s) as [s1 [y|]]; cbn in *; subst; [|reflexivity].
    specialize (IH s). destruct (mmap f r s) as [s1 [ys|]]; cbn in *; subst; reflexivity.
  Qed.
  Lemma get_edge_ro e s : fst (@get_edge R e s) = s.
  Proof. unfold get_edge. destruct (s_edges s e) as [ed|]; [destruct (e_dis ed)|]; reflexivity. Qed.
  Lemma node_edges_ro n s : fst (@node_edges R n s) = s.
  Proof. unfold node_edges, bind, get_node. destruct (s_nodes s n); reflexivity. Qed.
  Lemma reach_ro fuel : forall seen queue s, fst (@reach_loop R fuel seen queue s) = s.
  Proof.
    induction fuel as [|f IH]; intros seen [|n r] s; cbn [reach_loop]; try reflexivity. unfold bind. pose proof (node_edges_ro n s) as E.
    destruct (node_edges n s) as [s1 [es|]]; cbn in *; subst; [|reflexivity]. apply IH.
  Qed.
  Lemma q_nodes_ro q s : fst (q_nodes iter q s) = s.
  Proof.
    unfold q_nodes, bind, get_all_nodes, bind. pose proof (@mmap_ro _ _ (@get_edge R) (q_out q ++ q_in q) get_edge_ro s) as E.
    destruct (mmap _ _ s) as [s1 [l|]]; cbn in *; subst; [|reflexivity]. unfold reachable. destruct (_ ++ q_ref q); [reflexivity|]. apply reach_ro.
  Qed.
  Lemma mmap_edges_inv ns : forall s s' l, mmap (@node_edges R) ns s = (s', Some l) -> s' = s /\ (forall n, In n ns -> is_node s n).
  Proof.
    induction ns as [|n r IH]; intros s s' l H; [injection H as -> _; split; [reflexivity|intros n []]|].
    cbn [mmap] in H. unfold bind, node_edges at 1, bind, get_node in H. destruct (s_nodes s n) as [nd|] eqn:E; [|discriminate]. unfold ret in H at 1.
    destruct (mmap (@node_edges R) r s) as [s1 [ys|]] eqn:E1; [|discriminate]. injection H as <- _. destruct (IH s s1 ys E1) as [-> Q]. split; [reflexivity|].
    intros m [<-|Hm]; [unfold is_node; congruence|apply Q, Hm].
  Qed.

  Theorem construct_spec s q : wf s -> NoDup (q_edges q) -> (forall n, is_node s n -> named s n) -> (forall n, In n (q_ref q) -> is_node s n) ->
    (forall n ns, In n (q_cps q) -> oper s (Qu (q_out q) (q_in q) (q_ref q) (q_ign q) []) ns -> In n ns) ->
    (exists ns, oper s q ns /\ construct iter q s = (s, Some q)) \/ ((forall ns, ~ oper s q ns) /\ construct iter q s = (s, None)).
  Proof.
    intros W HN Hnm Hr Hc.
    assert (fst (construct iter q s) = s) as Ero.
    { unfold construct, check_network. destruct (negb _); cbn [guard]; [|reflexivity]. unfold bind, ret.
      destruct (forallb _ _); cbn [guard]; [|reflexivity]. unfold ret. pose proof (q_nodes_ro q s) as E. destruct (q_nodes iter q s) as [s1 [l|]]; cbn in *; subst; [|reflexivity].
      unfold get_subgraph_dangling, get_all_edges, bind. pose proof (@mmap_ro _ _ (@node_edges R) l node_edges_ro s) as E. destruct (mmap _ l s) as [s1 [l'|]]; cbn in *; subst; [|reflexivity].
      destruct (same_set _ _); reflexivity. }
    destruct (construct iter q s) as [s1 [q'|]] eqn:H; cbn in Ero; subst s1; [left|right].
    2:{ split; [|reflexivity]. intros ns O. rewrite (construct_ok W O) in H. discriminate. }
    unfold construct, check_network in H. destruct (negb _) eqn:Ene; cbn [guard] in H; [|discriminate]. unfold bind, ret in H.
    destruct (forallb _ _) eqn:Edan; cbn [guard] in H; [|discriminate]. unfold ret in H. pose proof (q_nodes_ro q s) as E. destruct (q_nodes iter q s) as [s1 [l|]] eqn:H1; cbn in E; subst s1; [|discriminate].
    destruct (get_subgraph_dangling iter l s) as [s1 [ds|]] eqn:H2; [|discriminate].
    assert (forall n, In n l -> is_node s n) as Hl.
    { unfold get_subgraph_dangling, get_all_edges, bind in H2. destruct (mmap (@node_edges R) l s) as [s2 [l'|]] eqn:E2; [|discriminate]. apply mmap_edges_inv in E2. apply E2. }
    destruct (get_subgraph_dangling_spec iter_perm W Hl) as (ds' & H3 & _ & Hds). rewrite H2 in H3. injection H3 as -> <-.
    destruct (same_set _ _) eqn:Es; cbn [guard] in H; [|discriminate]. injection H as <-. rewrite same_set_spec in Es.
    assert (forall e, In e (q_edges q) -> exists n, In n l /\ on s n e) as Hon.
    { intros e He. assert (In e ds) as Hd by (apply Es; unfold q_edges in He; rewrite !in_app_iff in *; tauto).
      apply Hds in Hd. destruct Hd as (n & Hn & [(k & Hk & _)|(m & _ & (p & p' & _ & <- & _ & Hp & _))]); exists n || exists (fst p); (split; [exact Hn|]); [exists k; exact Hk|].
      exists (snd p). rewrite <- surjective_pairing. exact Hp. }
    destruct (@q_nodes_spec s q W) as (l' & H4 & Hnd & _ & Hm).
    { intros e He. destruct (Hon e) as (n & _ & Hn); [unfold q_edges; rewrite app_assoc; apply in_or_app; left; exact He|eauto]. }
    { exact Hr. }
    { destruct (q_out q); [|left; discriminate]. destruct (q_in q); [|left; discriminate]. destruct (q_ref q); [discriminate|right; discriminate]. }
    rewrite H1 in H4. injection H4 as <-.
    assert (forall n m e, In n l -> on s n e -> on s m e -> In m l) as Cl.
    { intros n m e Hn O1 O2. apply Hm in Hn. destruct Hn as (x & Hx & C). apply Hm. exists x. split; [exact Hx|]. apply conn_step with (m := n) (e := e); assumption. }
    assert (forall e, In e (q_edges q) <-> exists n, In n l /\ open_on s n e) as Hop.
    { intros e. transitivity (In e ds); [rewrite <- Es; unfold q_edges; rewrite !in_app_iff; tauto|]. rewrite Hds. split.
      - intros (n & Hn & [Ho|(m & Hm' & (p & p' & _ & <- & <- & Q1 & Q2))]); [eauto|]. exfalso. apply Hm'. apply (Cl (fst p) (fst p') e Hn); [exists (snd p)|exists (snd p')]; rewrite <- surjective_pairing; assumption.
      - intros (n & Hn & Ho). exists n. auto. }
    exists l. split; [|reflexivity].
    assert (oper s (Qu (q_out q) (q_in q) (q_ref q) (q_ign q) []) l) as O.
    { split; auto; try (intros n Hn; apply Hnm, Hl, Hn). 2:{ intros n []. }
      intros ->. destruct (q_out q ++ q_in q) as [|e r] eqn:E.
      - apply app_eq_nil in E. destruct E as [E1 E2]. rewrite E1, E2 in Ene. destruct (q_ref q) as [|n r] eqn:E3; [discriminate|].
        apply (Hm n). exists n. split; [right; left; reflexivity|constructor].
      - destruct (Hon e) as (n & [] & _). unfold q_edges. rewrite app_assoc, E. left. reflexivity. }
    split; try apply O. intros n Hn. apply (Hc n l Hn O).
  Qed.
End QN.
