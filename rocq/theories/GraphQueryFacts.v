(** * GraphQueryFacts: the query functions return exactly the stated nodes and edges *)
From Verif Require Import Prelude Algebra Tensor TensorFacts Einsum EinsumFacts NetworkFacts Graph GraphBase GraphContract GraphOps GraphValue GraphOuter GraphConnect GraphJoin GraphBetween GraphRetail GraphFuse GraphFlatten GraphTrace GraphSplit GraphProg GraphSched GraphQuery.
Set Implicit Arguments.
Unset Strict Implicit.

Section GQ.
  Context {R : csr}.
  Notation st := (@st R).
  Notation M := (@M R).
  Notation node := (@node R).
  Implicit Types (s : st) (e : eid).
  Variable iter : list nat -> list nat.
  Hypothesis iter_perm : forall l, Permutation (iter l) l.

  (** ** Specification: which edges sit where, in terms of the edge lists of the nodes only *)

  (** edge e is on node n *)
  Definition on s (n : nid) e : Prop := exists k, slot s (n, k) = Some e.
  (** edge e joins node n1 to node n2 (two different axes of one node when n1 = n2) *)
  Definition between s (n1 n2 : nid) e : Prop :=
    exists p q, p <> q /\ fst p = n1 /\ fst q = n2 /\ slot s p = Some e /\ slot s q = Some e.
  (** edge e is a loose end of node n *)
  Definition open_on s (n : nid) e : Prop :=
    exists k, slot s (n, k) = Some e /\ forall q, slot s q = Some e -> q = (n, k).
  Definition is_node s (n : nid) : Prop := s_nodes s n <> None.

  Inductive connected s : nid -> nid -> Prop :=
  | conn_refl n : connected s n n
  | conn_step n m l e : connected s n m -> on s m e -> on s l e -> connected s n l.

  Lemma on_In s n nd e : s_nodes s n = Some nd -> on s n e <-> In e (n_edges nd).
  Proof.
    intros H. split.
    - intros (k & Hk). unfold slot in Hk. cbn in Hk. rewrite H in Hk. apply (nth_error_In _ _ Hk).
    - intros He. destruct (In_nth_error _ _ He) as [k Hk]. exists k. apply (slot_intro H Hk).
  Qed.
  Lemma on_node s n e : on s n e -> is_node s n.
  Proof. intros (k & Hk) K. unfold slot in Hk. cbn in Hk. rewrite K in Hk. discriminate. Qed.
  Lemma on_edge s n e : wf s -> on s n e -> exists ed, s_edges s e = Some ed /\ e_dis ed = false.
  Proof. intros W (k & Hk). destruct (wf_slot W Hk) as (ed & E & D & _). eauto. Qed.
  Lemma is_node_Some s n : is_node s n -> exists nd, s_nodes s n = Some nd.
  Proof. unfold is_node. destruct (s_nodes s n); [eauto|congruence]. Qed.

  (** the two kinds of live edges *)
  Lemma kinds s n e ed : wf s -> on s n e -> s_edges s e = Some ed ->
    (e_2 ed = None /\ e_n1 ed = n /\ open_on s n e /\ (forall m, on s m e -> m = n) /\ forall n1 n2, ~ between s n1 n2 e) \/
    (exists m a2, e_2 ed = Some (m, a2) /\ between s (e_n1 ed) m e /\ (e_n1 ed = n \/ m = n) /\
       (forall x, on s x e -> x = e_n1 ed \/ x = m) /\ (forall x, ~ open_on s x e) /\
       forall x y, between s x y e <-> (x = e_n1 ed /\ y = m) \/ (x = m /\ y = e_n1 ed)).
  Proof.
    intros W (k & Hk) He. pose proof (ends_live W Hk He) as L. pose proof (live_in_ends W Hk He) as Hin.
    destruct (wf_slot W Hk) as (ed' & K & _ & _ & Hnd & _). rewrite He in K. injection K as <-.
    pose proof (fun q Hq => live_in_ends (p := q) W Hq He) as L'.
    destruct ed as [n1 a1 [[m a2]|] ds]; unfold ends in *; cbn [e_2 e_n1 e_a1] in *.
    - right. exists m, a2. split; [reflexivity|].
      assert ((n1, a1) <> (m, a2)) as Hne.
      { apply NoDup_cons_iff in Hnd. destruct Hnd as [Hnd _]. intros Q. apply Hnd. left. congruence. }
      assert (slot s (n1, a1) = Some e) as S1 by (apply L; cbn; auto).
      assert (slot s (m, a2) = Some e) as S2 by (apply L; cbn; auto).
      split; [exists (n1, a1), (m, a2); auto|].
      split; [destruct Hin as [Q|[Q|[]]]; injection Q as <- <-; auto|].
      split; [intros x (j & Hj); apply L' in Hj; destruct Hj as [Q|[Q|[]]]; injection Q as <- <-; auto|].
      split; [intros x (j & _ & Q); pose proof (Q _ S1) as Q1; pose proof (Q _ S2) as Q2; congruence|].
      intros x y. split.
      + intros (p & q & Hpq & <- & <- & Hp & Hq). apply L' in Hp, Hq.
        destruct Hp as [<-|[<-|[]]], Hq as [<-|[<-|[]]]; try congruence; cbn; auto.
      + intros [[-> ->]|[-> ->]]; [exists (n1, a1), (m, a2)|exists (m, a2), (n1, a1)]; auto.
    - left. split; [reflexivity|]. destruct Hin as [Q|[]]. injection Q as -> ->. split; [reflexivity|].
      split; [exists k; split; [exact Hk|]; intros q Hq; apply L' in Hq; destruct Hq as [<-|[]]; reflexivity|].
      split; [intros m (j & Hj); apply L' in Hj; destruct Hj as [Q|[]]; congruence|].
      intros x y (p & q & Hpq & _ & _ & Hp & Hq). apply L' in Hp, Hq. destruct Hp as [<-|[]], Hq as [<-|[]]. congruence.
  Qed.

  Lemma edge_dangling_spec s n e : wf s -> on s n e -> (edge_dangling s e = true <-> open_on s n e).
  Proof.
    intros W H. destruct (on_edge W H) as (ed & He & _). unfold edge_dangling. rewrite He.
    destruct (kinds W H He) as [(E & _ & K & _)|(m & a2 & E & _ & _ & _ & K & _)]; unfold is_dangling; rewrite E.
    - intuition.
    - split; [discriminate|]. intros Q. exfalso. apply (K n Q).
  Qed.

  Lemma edge_nodes_raw_spec s n e m : wf s -> on s n e -> In m (edge_nodes_raw s e) <-> on s m e.
  Proof.
    intros W H. destruct (on_edge W H) as (ed & He & Hd). unfold edge_nodes_raw. rewrite He, Hd. split.
    - intros Q. apply in_map_iff in Q. destruct Q as (p & <- & Hp). destruct H as (k & Hk).
      exists (snd p). rewrite <- surjective_pairing. apply (ends_live W Hk He Hp).
    - intros (k & Hk). apply in_map_iff. exists (m, k). split; [reflexivity|]. apply (live_in_ends W Hk He).
  Qed.

  (** ** The queries *)
  Lemma node_edges_ok s n nd : s_nodes s n = Some nd -> node_edges n s = (s, Some (n_edges nd)).
  Proof. intros H. unfold node_edges, bind, get_node. rewrite H. reflexivity. Qed.
  Definition edges_at0 s n : list eid := match s_nodes s n with Some nd => n_edges nd | None => [] end.
  Lemma mmap_edges s ns : (forall n, In n ns -> is_node s n) ->
    mmap (@node_edges R) ns s = (s, Some (map (edges_at0 s) ns)).
  Proof.
    induction ns as [|n ns IH]; intros H; [reflexivity|]. cbn [mmap]. unfold bind at 1.
    destruct (is_node_Some (H n (or_introl eq_refl))) as (nd & Hn). rewrite (node_edges_ok Hn).
    unfold bind. rewrite IH by (intros m Hm; apply H; right; exact Hm). cbn [map]. unfold edges_at0 at 2. rewrite Hn. reflexivity.
  Qed.
  Lemma In_concat_edges s ns e : In e (concat (map (edges_at0 s) ns)) <-> exists n, In n ns /\ on s n e.
  Proof.
    rewrite in_concat. split.
    - intros (l & Hl & He). apply in_map_iff in Hl. destruct Hl as (n & <- & Hn). exists n. split; [exact Hn|].
      unfold edges_at0 in He. destruct (s_nodes s n) as [nd|] eqn:E; [|destruct He]. apply (on_In e E). exact He.
    - intros (n & Hn & He). exists (edges_at0 s n). split; [apply in_map; exact Hn|].
      destruct (is_node_Some (on_node He)) as (nd & E). unfold edges_at0. rewrite E. apply (on_In e E). exact He.
  Qed.
  Lemma In_iter x l : In x (iter l) <-> In x l.
  Proof. split; apply Permutation_in; [|symmetry]; apply iter_perm. Qed.
  Lemma NoDup_iter l : NoDup l -> NoDup (iter l).
  Proof. apply Permutation_NoDup. symmetry. apply iter_perm. Qed.

  Theorem get_all_edges_spec s ns : (forall n, In n ns -> is_node s n) ->
    exists l, get_all_edges iter ns s = (s, Some l) /\ NoDup l /\ forall e, In e l <-> exists n, In n ns /\ on s n e.
  Proof.
    intros H. unfold get_all_edges, bind. rewrite (mmap_edges H). eexists. split; [reflexivity|].
    split; [apply NoDup_iter, NoDup_nodup|]. intros e. rewrite In_iter, nodup_In. apply In_concat_edges.
  Qed.

  Lemma mmap_get_edge s es : (forall e, In e es -> exists ed, s_edges s e = Some ed /\ e_dis ed = false) ->
    mmap (@get_edge R) es s = (s, Some (map (fun e => match s_edges s e with Some ed => ed | None => Edge 0 0 None false end) es)).
  Proof.
    induction es as [|e es IH]; intros H; [reflexivity|]. cbn [mmap]. unfold bind at 1, get_edge at 1.
    destruct (H e (or_introl eq_refl)) as (ed & E & D). rewrite E, D.
    unfold bind. rewrite IH by (intros f Hf; apply H; right; exact Hf). cbn [map]. rewrite E. reflexivity.
  Qed.

  Theorem get_all_nodes_spec s es : wf s -> (forall e, In e es -> exists n, on s n e) ->
    exists l, get_all_nodes iter es s = (s, Some l) /\ NoDup l /\ forall n, In n l <-> exists e, In e es /\ on s n e.
  Proof.
    intros W H. unfold get_all_nodes, bind.
    rewrite mmap_get_edge by (intros e He; destruct (H e He) as (n & Hn); apply (on_edge W Hn)).
    eexists. split; [reflexivity|]. split; [apply NoDup_iter, NoDup_nodup|]. intros n. rewrite In_iter, nodup_In, in_concat.
    split.
    - intros (l & Hl & Hn). rewrite map_map in Hl. apply in_map_iff in Hl. destruct Hl as (e & <- & He). exists e. split; [exact He|].
      destruct (H e He) as (m & Hm). apply (edge_nodes_raw_spec n W Hm). unfold edge_nodes_raw.
      destruct (on_edge W Hm) as (ed & E & D). rewrite E in *. rewrite D. exact Hn.
    - intros (e & He & Hn). destruct (on_edge W Hn) as (ed & E & D). exists (map fst (ends ed)). split.
      + rewrite map_map. apply in_map_iff. exists e. rewrite E. auto.
      + pose proof (proj2 (edge_nodes_raw_spec n W Hn) Hn) as Q. unfold edge_nodes_raw in Q. rewrite E, D in Q. exact Q.
  Qed.

  Theorem get_all_nondangling_spec s ns : wf s -> (forall n, In n ns -> is_node s n) ->
    exists l, get_all_nondangling iter ns s = (s, Some l) /\ NoDup l /\
      forall e, In e l <-> exists n m, In n ns /\ between s n m e.
  Proof.
    intros W H. unfold get_all_nondangling, bind. rewrite (mmap_edges H). eexists. split; [reflexivity|].
    split; [apply NoDup_iter, NoDup_nodup|]. intros e. rewrite In_iter, nodup_In, filter_In, In_concat_edges. split.
    - intros [(n & Hn & He) Q]. destruct (on_edge W He) as (ed & E & _).
      destruct (kinds W He E) as [(E2 & _ & K & _)|(m & a2 & E2 & Hb & Hor & _ & _ & Hiff)].
      { unfold edge_dangling, is_dangling in Q. rewrite E, E2 in Q. discriminate. }
      destruct Hor as [<-|<-]; [exists (e_n1 ed), m; auto|]. exists m, (e_n1 ed). split; [exact Hn|]. apply Hiff. auto.
    - intros (n & m & Hn & Hb). pose proof Hb as (p & q & _ & <- & _ & Hp & _).
      assert (on s (fst p) e) as He by (exists (snd p); rewrite <- surjective_pairing; exact Hp).
      split; [exists (fst p); auto|]. destruct (edge_dangling s e) eqn:Q; [|reflexivity]. exfalso.
      apply (edge_dangling_spec W He) in Q. destruct Q as (k & _ & Q). destruct Hb as (p' & q' & Hne & _ & _ & Hp' & Hq'). apply Hne.
      rewrite (Q _ Hp'), (Q _ Hq'). reflexivity.
  Qed.

  (** dangling edges come node by node, in axis order *)
  Theorem get_all_dangling_spec s ns : wf s -> (forall n, In n ns -> is_node s n) ->
    exists l, get_all_dangling ns s = (s, Some l) /\
      (forall e, In e l <-> exists n, In n ns /\ open_on s n e) /\ (NoDup ns -> NoDup l) /\
      l = flat_map (fun n => filter (edge_dangling s) (edges_at0 s n)) ns.
  Proof.
    intros W H. unfold get_all_dangling, bind. rewrite (mmap_edges H). eexists. split; [reflexivity|].
    assert (filter (edge_dangling s) (concat (map (edges_at0 s) ns)) = flat_map (fun n => filter (edge_dangling s) (edges_at0 s n)) ns) as EQ.
    { clear H. induction ns as [|n ns IH]; [reflexivity|]. cbn [map concat flat_map]. rewrite filter_app, IH. reflexivity. }
    split; [|split; [|exact EQ]].
    - intros e. rewrite filter_In, In_concat_edges. split.
      + intros [(n & Hn & He) Q]. exists n. split; [exact Hn|]. apply (edge_dangling_spec W He). exact Q.
      + intros (n & Hn & Ho). assert (on s n e) as He by (destruct Ho as (k & Hk & _); exists k; exact Hk).
        split; [exists n; auto|]. apply (edge_dangling_spec W He). exact Ho.
    - intros Hns. rewrite EQ. clear EQ H. induction ns as [|n ns IH]; [constructor|]. cbn [flat_map].
      apply NoDup_cons_iff in Hns. destruct Hns as [Hn Hns]. apply NoDup_app_iff; split; [|split; [apply IH; exact Hns|]].
      + unfold edges_at0. destruct (s_nodes s n) as [nd|] eqn:E; [|constructor].
        assert (forall es k0, (forall k f, nth_error es k = Some f -> slot s (n, k0 + k) = Some f) -> NoDup (filter (edge_dangling s) es)) as G.
        { induction es as [|f es IHe]; intros k0 Hes; [constructor|]. cbn [filter].
          assert (NoDup (filter (edge_dangling s) es)) as Q.
          { apply (IHe (S k0)). intros k g Hg. replace (S k0 + k) with (k0 + S k) by lia. apply Hes. exact Hg. }
          destruct (edge_dangling s f) eqn:D; [|exact Q]. constructor; [|exact Q]. intros K. apply filter_In in K. destruct K as [K _].
          destruct (In_nth_error _ _ K) as [j Hj].
          assert (slot s (n, k0 + 0) = Some f) as S0 by (apply Hes; reflexivity).
          assert (slot s (n, k0 + S j) = Some f) as S1 by (apply Hes; exact Hj).
          assert (on s n f) as Ho by (eexists; exact S0).
          apply (edge_dangling_spec W Ho) in D. destruct D as (k & _ & D). pose proof (D _ S0) as D0. pose proof (D _ S1) as D1.
          rewrite <- D0 in D1. injection D1. lia. }
        apply (G _ 0). intros k f Hf. apply (slot_intro E). exact Hf.
      + intros f Hf K. apply filter_In in Hf. destruct Hf as [Hf Df].
        assert (on s n f) as Ho.
        { unfold edges_at0 in Hf. destruct (s_nodes s n) as [nd|] eqn:E; [|destruct Hf]. apply (on_In f E). exact Hf. }
        apply (edge_dangling_spec W Ho) in Df. destruct Df as (k & _ & Df). apply in_flat_map in K. destruct K as (m & Hm & K).
        apply filter_In in K. destruct K as [K _]. assert (on s m f) as (j & Hj).
        { unfold edges_at0 in K. destruct (s_nodes s m) as [nd|] eqn:E; [|destruct K]. apply (on_In f E). exact K. }
        apply Df in Hj. injection Hj as -> _. contradiction.
  Qed.

  Theorem get_subgraph_dangling_spec s ns : wf s -> (forall n, In n ns -> is_node s n) ->
    exists l, get_subgraph_dangling iter ns s = (s, Some l) /\ NoDup l /\
      forall e, In e l <-> exists n, In n ns /\ (open_on s n e \/ exists m, ~ In m ns /\ between s n m e).
  Proof.
    intros W H. destruct (get_all_edges_spec H) as (es & E & Hnd & Hin). unfold get_subgraph_dangling, bind. rewrite E.
    eexists. split; [reflexivity|]. split; [apply NoDup_filter; exact Hnd|]. intros e. rewrite filter_In, Hin. split.
    - intros [(n & Hn & He) Q]. destruct (on_edge W He) as (ed & Ee & D). apply orb_true_iff in Q. destruct Q as [Q|Q].
      + exists n. split; [exact Hn|]. left. apply (edge_dangling_spec W He). exact Q.
      + exists n. split; [exact Hn|]. apply negb_true_iff in Q. right.
        destruct (existsb (fun m => negb (mem m ns)) (edge_nodes_raw s e)) eqn:X.
        2:{ exfalso. assert (forallb (fun n => mem n ns) (edge_nodes_raw s e) = true) as Y; [|congruence]. apply forallb_forall. intros m Hm.
            destruct (mem m ns) eqn:Z; [reflexivity|]. assert (existsb (fun m => negb (mem m ns)) (edge_nodes_raw s e) = true) as Y; [|congruence].
            apply existsb_exists. exists m. rewrite Z. auto. }
        apply existsb_exists in X. destruct X as (m & Hm & X). apply negb_true_iff, mem_nIn in X. exists m. split; [exact X|].
        apply (edge_nodes_raw_spec m W He) in Hm.
        destruct He as (k & Hk). destruct Hm as (j & Hj). exists (n, k), (m, j). split; [|auto]. intros K. injection K as -> _. contradiction.
    - intros (n & Hn & [Ho|(m & Hm & Hb)]).
      + assert (on s n e) as He by (destruct Ho as (k & Hk & _); exists k; exact Hk). split; [exists n; auto|].
        rewrite (proj2 (edge_dangling_spec W He) Ho). reflexivity.
      + destruct Hb as (p & q & _ & <- & <- & Hp & Hq).
        assert (on s (fst p) e) as He by (exists (snd p); rewrite <- surjective_pairing; exact Hp).
        assert (on s (fst q) e) as Hq' by (exists (snd q); rewrite <- surjective_pairing; exact Hq).
        split; [exists (fst p); auto|]. apply orb_true_iff. right. apply negb_true_iff. destruct (forallb _ _) eqn:X; [|reflexivity].
        rewrite forallb_forall in X. specialize (X (fst q) (proj2 (edge_nodes_raw_spec (fst q) W He) Hq')). apply mem_In in X. contradiction.
  Qed.

  Lemma joins_between s n e ed n1 n2 : wf s -> on s n e -> s_edges s e = Some ed -> joins ed n1 n2 = true <-> between s n1 n2 e.
  Proof.
    intros W He E. destruct (on_edge W He) as (ed' & E' & D). rewrite E in E'. injection E' as <-.
    unfold joins. rewrite D. cbn [negb andb].
    destruct (kinds W He E) as [(E2 & _ & _ & _ & K)|(m & a2 & E2 & _ & _ & _ & _ & K)]; rewrite E2.
    - split; [discriminate|]. intros Q. exfalso. apply (K _ _ Q).
    - rewrite K, orb_true_iff, !andb_true_iff, !Nat.eqb_eq. intuition congruence.
  Qed.

  Theorem get_shared_edges_spec s n1 n2 : wf s -> is_node s n1 ->
    exists l, get_shared_edges iter n1 n2 s = (s, Some l) /\ NoDup l /\ forall e, In e l <-> between s n1 n2 e.
  Proof.
    intros W H. destruct (is_node_Some H) as (nd & Hn). unfold get_shared_edges, bind, get_node. rewrite Hn. eexists. split; [reflexivity|].
    unfold shared_list. rewrite Hn. split; [apply NoDup_iter, NoDup_nodup|]. intros e. rewrite In_iter, nodup_In, filter_In, <- (on_In e Hn). split.
    - intros [He Q]. destruct (on_edge W He) as (ed & E & _). rewrite E in Q. apply (joins_between n1 n2 W He E). exact Q.
    - intros Hb. assert (on s n1 e) as He by (destruct Hb as (p & q & _ & <- & _ & Hp & _); exists (snd p); rewrite <- surjective_pairing; exact Hp).
      split; [exact He|]. destruct (on_edge W He) as (ed & E & _). rewrite E. apply (joins_between n1 n2 W He E). exact Hb.
  Qed.

  (** edges parallel to a connected edge join the same two nodes *)
  Theorem get_parallel_edges_spec s e n1 n2 : wf s -> between s n1 n2 e ->
    exists l, get_parallel_edges iter e s = (s, Some l) /\ NoDup l /\ forall f, In f l <-> between s n1 n2 f.
  Proof.
    intros W Hb. assert (on s n1 e) as He by (destruct Hb as (p & q & _ & <- & _ & Hp & _); exists (snd p); rewrite <- surjective_pairing; exact Hp).
    destruct (on_edge W He) as (ed & E & D). unfold get_parallel_edges, bind at 1, get_edge. rewrite E, D.
    destruct (kinds W He E) as [(_ & _ & _ & _ & K)|(m & a2 & E2 & Hm & _ & _ & _ & K)]; [exfalso; apply (K _ _ Hb)|]. rewrite E2.
    assert (is_node s (e_n1 ed)) as Hi by (destruct Hm as (p & q & _ & <- & _ & Hp & _); apply (@on_node s _ e); exists (snd p); rewrite <- surjective_pairing; exact Hp).
    destruct (@get_shared_edges_spec s (e_n1 ed) m W Hi) as (l & El & Hnd & Hl). exists l. split; [exact El|]. split; [exact Hnd|].
    intros f. rewrite Hl. apply K in Hb. destruct Hb as [[-> ->]|[-> ->]]; [reflexivity|].
    split; intros (p & q & H1 & H2 & H3 & H4 & H5); exists q, p; auto.
  Qed.
  (** edges "parallel" to a dangling edge are the dangling edges of its node *)
  Theorem get_parallel_dangling_spec s e n : wf s -> open_on s n e ->
    exists l, get_parallel_edges iter e s = (s, Some l) /\ NoDup l /\ forall f, In f l <-> open_on s n f.
  Proof.
    intros W Ho. assert (on s n e) as He by (destruct Ho as (k & Hk & _); exists k; exact Hk).
    destruct (on_edge W He) as (ed & E & D). unfold get_parallel_edges, bind at 1, get_edge. rewrite E, D.
    destruct (kinds W He E) as [(E2 & En & _ & _ & K)|(m & a2 & E2 & _ & _ & _ & K & _)]; [|exfalso; apply (K _ Ho)]. rewrite E2, En.
    destruct (is_node_Some (on_node He)) as (nd & Hn). unfold bind, get_node. rewrite Hn. eexists. split; [reflexivity|].
    split; [apply NoDup_iter, NoDup_nodup|]. intros f. rewrite In_iter, nodup_In, filter_In, <- (on_In f Hn). split.
    - intros [Hf Q]. apply (edge_dangling_spec W Hf). unfold edge_dangling. destruct (s_edges s f) as [fd|]; [|reflexivity].
      apply andb_true_iff in Q. destruct Q as [Q _]. apply andb_true_iff in Q. apply Q.
    - intros Hf. assert (on s n f) as Hf' by (destruct Hf as (k & Hk & _); exists k; exact Hk). split; [exact Hf'|].
      destruct (on_edge W Hf') as (fd & Ef & Df). rewrite Ef, Df. cbn [negb andb].
      destruct (kinds W Hf' Ef) as [(Ef2 & En' & _)|(m & a2 & _ & _ & _ & _ & K' & _)]; [|exfalso; apply (K' _ Hf)].
      unfold is_dangling. rewrite Ef2, En', Nat.eqb_refl. reflexivity.
  Qed.

  Lemma neighbors_from_spec s n : wf s -> forall es seen, (forall e, In e es -> on s n e) -> NoDup seen ->
    exists l, neighbors_from n seen es s = (s, Some l) /\ NoDup l /\
      forall m, In m l <-> In m seen \/ (m <> n /\ exists e, In e es /\ on s m e).
  Proof.
    intros W. induction es as [|e es IH]; intros seen Hes Hnd.
    - exists seen. split; [reflexivity|]. split; [exact Hnd|]. intros m. split; [auto|]. intros [K|(_ & e & [] & _)]. exact K.
    - pose proof (Hes e (or_introl eq_refl)) as He. assert (forall f, In f es -> on s n f) as Hes' by (intros f Hf; apply Hes; right; exact Hf).
      destruct (on_edge W He) as (ed & E & D). cbn [neighbors_from]. unfold bind at 1. unfold edge_dangling. rewrite E.
      assert (forall m, ((exists f, In f (e :: es) /\ on s m f) <-> on s m e \/ exists f, In f es /\ on s m f)) as Hsplit.
      { intros m. split; [intros (f & [<-|Hf] & Hm); eauto|]. intros [Hm|(f & Hf & Hm)]; [exists e|exists f]; cbn; auto. }
      destruct (kinds W He E) as [(E2 & En & _ & Hon & _)|(m & a2 & E2 & Hm & Hor & Hon & _ & K)]; unfold is_dangling; rewrite E2.
      + destruct (IH seen Hes' Hnd) as (l & El & Hl & Hin). exists l. split; [exact El|]. split; [exact Hl|]. intros x. rewrite Hin, Hsplit. split; [intuition|].
        intros [Hx|(Hx & [Hx'|Hx'])]; [auto| |auto]. exfalso. apply Hx. apply Hon. exact Hx'.
      + unfold bind at 1, get_edge. rewrite E, D. rewrite E2. destruct (Nat.eqb_spec (e_n1 ed) m) as [Em|Em].
        * destruct (IH seen Hes' Hnd) as (l & El & Hl & Hin). exists l. split; [exact El|]. split; [exact Hl|]. intros x. rewrite Hin, Hsplit. split; [intuition|].
          intros [Hx|(Hx & [Hx'|Hx'])]; [auto| |auto]. exfalso. apply Hx. apply Hon in Hx'. intuition congruence.
        * set (o := if Nat.eqb (e_n1 ed) n then m else e_n1 ed).
          assert (o <> n /\ on s o e /\ forall x, on s x e -> x = n \/ x = o) as (Ho1 & Ho2 & Ho3).
          { unfold o. destruct Hm as (p & q & _ & Hp1 & Hq1 & Hp & Hq).
            assert (on s (e_n1 ed) e) as On1 by (rewrite <- Hp1; exists (snd p); rewrite <- surjective_pairing; exact Hp).
            assert (on s m e) as On2 by (rewrite <- Hq1; exists (snd q); rewrite <- surjective_pairing; exact Hq).
            destruct (Nat.eqb_spec (e_n1 ed) n) as [En|En].
            - split; [congruence|]. split; [exact On2|]. intros x Hx. apply Hon in Hx. intuition congruence.
            - split; [exact En|]. split; [exact On1|]. intros x Hx. apply Hon in Hx. intuition congruence. }
          destruct (IH (if mem o seen then seen else seen ++ [o]) Hes') as (l & El & Hl & Hin).
          { destruct (mem o seen) eqn:Q; [exact Hnd|]. apply mem_nIn in Q. apply (Permutation_NoDup (Permutation_cons_append _ _)). constructor; assumption. }
          exists l. split; [exact El|]. split; [exact Hl|]. intros x. rewrite Hin, Hsplit.
          assert (In x (if mem o seen then seen else seen ++ [o]) <-> In x seen \/ x = o) as Hx.
          { destruct (mem o seen) eqn:Q; [apply mem_In in Q; intuition congruence|]. rewrite in_app_iff. cbn. intuition. }
          rewrite Hx. split.
          -- intros [[Q| ->]|(Q & Q')]; auto.
          -- intros [Q|(Q & [Q'|Q'])]; auto. left. right. apply Ho3 in Q'. intuition.
  Qed.
  Theorem get_neighbors_spec s n : wf s -> is_node s n ->
    exists l, get_neighbors n s = (s, Some l) /\ NoDup l /\ forall m, In m l <-> m <> n /\ exists e, between s n m e.
  Proof.
    intros W H. destruct (is_node_Some H) as (nd & Hn). unfold get_neighbors, bind at 1. rewrite (node_edges_ok Hn).
    destruct (@neighbors_from_spec s n W (n_edges nd) []) as (l & El & Hl & Hin); [intros e He; apply (on_In e Hn); exact He|constructor|].
    exists l. split; [exact El|]. split; [exact Hl|]. intros m. rewrite Hin. split.
    - intros [[]|(Hne & e & He & Hm)]. split; [exact Hne|]. exists e. apply (on_In e Hn) in He. destruct He as (k & Hk), Hm as (j & Hj).
      exists (n, k), (m, j). split; [congruence|]. auto.
    - intros (Hne & e & p & q & _ & <- & <- & Hp & Hq). right. split; [exact Hne|]. exists e. split.
      + apply (on_In e Hn). exists (snd p). rewrite <- surjective_pairing. exact Hp.
      + exists (snd q). rewrite <- surjective_pairing. exact Hq.
  Qed.

  (** ** Reachability *)
  Lemma push_new_spec ms : forall seen queue, exists new, push_new seen queue ms = (seen ++ new, queue ++ new) /\
    NoDup new /\ (forall x, In x new <-> In x ms /\ ~ In x seen).
  Proof.
    induction ms as [|m ms IH]; intros seen queue; cbn [push_new].
    - exists []. rewrite !app_nil_r. split; [reflexivity|]. split; [constructor|]. cbn. intuition.
    - destruct (mem m seen) eqn:Q.
      + apply mem_In in Q. destruct (IH seen queue) as (new & E & Hnd & Hin). exists new. split; [exact E|]. split; [exact Hnd|].
        intros x. rewrite Hin. cbn. intuition congruence.
      + apply mem_nIn in Q. destruct (IH (seen ++ [m]) (queue ++ [m])) as (new & E & Hnd & Hin). exists (m :: new).
        rewrite <- !app_assoc in E. split; [exact E|]. split.
        * constructor; [|exact Hnd]. intros K. apply Hin in K. destruct K as [_ K]. apply K. apply in_or_app. right. left. reflexivity.
        * intros x. cbn. rewrite Hin, in_app_iff. cbn. destruct (Nat.eq_dec m x) as [->|Hne]; intuition.
  Qed.

  Lemma connected_trans s a b c : connected s a b -> connected s b c -> connected s a c.
  Proof. intros H K. induction K as [n|n m l e K IH K1 K2]; [exact H|]. exact (conn_step (IH H) K1 K2). Qed.
  Lemma connected_step s a b e : on s a e -> on s b e -> connected s a b.
  Proof. intros H K. eapply conn_step; [apply conn_refl|exact H|exact K]. Qed.
  Lemma connected_sym s a b : connected s a b -> connected s b a.
  Proof. intros H. induction H as [n|n m l e H IH H1 H2]; [apply conn_refl|]. exact (connected_trans (connected_step H2 H1) IH). Qed.

  Lemma length_bound (l : list nat) N : NoDup l -> (forall x, In x l -> x < N) -> length l <= N.
  Proof. intros H K. rewrite <- (seq_length N 0). apply NoDup_incl_length; [exact H|]. intros x Hx. apply in_seq. specialize (K x Hx). lia. Qed.

  Lemma reach_loop_spec s (init : list nid) : wf s ->
    forall fuel seen queue,
    (forall x, In x queue \/ In x seen -> is_node s x /\ exists i, In i init /\ connected s i x) ->
    (forall x, In x init -> In x queue \/ In x seen) ->
    (forall x y e, In x seen -> ~ In x queue -> on s x e -> on s y e -> In y seen) ->
    NoDup seen -> length queue + s_nn s <= fuel + length seen ->
    exists l, reach_loop fuel seen queue s = (s, Some l) /\ NoDup l /\ forall x, In x l <-> exists i, In i init /\ connected s i x.
  Proof.
    intros W. induction fuel as [|fuel IH]; intros seen queue Hq Hi Hc Hnd Hf.
    - assert (length seen <= s_nn s) as Hls.
      { apply length_bound; [exact Hnd|]. intros x Hx. destruct (Hq x (or_intror Hx)) as [Hx' _]. destruct (is_node_Some Hx') as (nd & Hn). apply (wf_nn W Hn). }
      destruct queue as [|n q]; [|exfalso; cbn in Hf; lia]. exists seen. split; [reflexivity|]. split; [exact Hnd|]. intros x. split.
      + intros Hx. apply (Hq x (or_intror Hx)).
      + intros (i & Hin & Hcon). induction Hcon as [n|n m l e Hcon IHc H1 H2]; [destruct (Hi n Hin) as [[]|K]; exact K|].
        apply (Hc m l e (IHc Hin)); auto.
    - destruct queue as [|n q]; cbn [reach_loop].
      + exists seen. split; [reflexivity|]. split; [exact Hnd|]. intros x. split; [intros Hx; apply (Hq x (or_intror Hx))|].
        intros (i & Hin & Hcon). induction Hcon as [n|n m l e Hcon IHc H1 H2]; [destruct (Hi n Hin) as [[]|K]; exact K|].
        apply (Hc m l e (IHc Hin)); auto.
      + destruct (Hq n (or_introl (or_introl eq_refl))) as [Hn (i0 & Hi0 & Hcn)]. destruct (is_node_Some Hn) as (nd & En).
        unfold bind at 1. rewrite (node_edges_ok En). unfold bind at 1.
        set (seen1 := if mem n seen then seen else seen ++ [n]).
        destruct (push_new_spec (flat_map (edge_nodes_raw s) (n_edges nd)) seen1 q) as (new & E & Hnew & Hin). rewrite E. cbn [fst snd].
        assert (forall x, In x seen1 <-> In x seen \/ x = n) as Hs1.
        { intros x. unfold seen1. destruct (mem n seen) eqn:Q; [apply mem_In in Q; intuition congruence|]. rewrite in_app_iff. cbn. intuition. }
        assert (NoDup seen1) as Hnd1.
        { unfold seen1. destruct (mem n seen) eqn:Q; [exact Hnd|]. apply mem_nIn in Q. apply (Permutation_NoDup (Permutation_cons_append _ _)). constructor; assumption. }
        assert (length seen <= length seen1) as Hlen by (unfold seen1; destruct (mem n seen); [lia|rewrite app_length; cbn; lia]).
        assert (forall x, In x (flat_map (edge_nodes_raw s) (n_edges nd)) <-> exists e, on s n e /\ on s x e) as Hfm.
        { intros x. rewrite in_flat_map. split.
          - intros (e & He & Hx). apply (on_In e En) in He. exists e. split; [exact He|]. apply (edge_nodes_raw_spec x W He). exact Hx.
          - intros (e & He & Hx). exists e. split; [apply (on_In e En); exact He|]. apply (edge_nodes_raw_spec x W He). exact Hx. }
        apply IH.
        * intros x Hx. assert (In x (n :: q) \/ In x seen \/ In x new) as Hx'.
          { rewrite !in_app_iff, Hs1 in Hx. cbn. intuition. }
          destruct Hx' as [Hx'|[Hx'|Hx']]; [apply Hq; auto|apply Hq; auto|].
          apply Hin in Hx'. destruct Hx' as [Hx' _]. apply Hfm in Hx'. destruct Hx' as (e & He & Hxe). split; [apply (on_node Hxe)|].
          exists i0. split; [exact Hi0|]. eapply conn_step; eassumption.
        * intros x Hx. destruct (Hi x Hx) as [[->|K]|K]; rewrite !in_app_iff, Hs1; auto.
        * intros x y e Hx Hnq Hxe Hye. rewrite in_app_iff in *. rewrite Hs1 in *.
          assert (In x seen \/ x = n) as [Hx'| ->] by (destruct Hx as [K|K]; [exact K|exfalso; apply Hnq; auto]).
          -- destruct (Nat.eq_dec x n) as [->|Hne]; [|left; left; apply (Hc x y e Hx'); auto; cbn; intros [K|K]; [congruence|apply Hnq; auto]].
             destruct (in_dec Nat.eq_dec y seen1) as [K|K]; [apply Hs1 in K; auto|]. right. apply Hin. split; [apply Hfm; eauto|exact K].
          -- destruct (in_dec Nat.eq_dec y seen1) as [K|K]; [apply Hs1 in K; auto|]. right. apply Hin. split; [apply Hfm; eauto|exact K].
        * apply NoDup_app_iff; split; [exact Hnd1|split; [exact Hnew|]]. intros x Hx K. apply Hin in K. destruct K as [_ K]. contradiction.
        * rewrite !app_length in *. cbn [length] in Hf. lia.
  Qed.

  Theorem reachable_spec s inputs : wf s -> inputs <> [] -> (forall n, In n inputs -> is_node s n) ->
    exists l, reachable iter inputs s = (s, Some l) /\ NoDup l /\ forall m, In m l <-> exists n, In n inputs /\ connected s n m.
  Proof.
    intros W Hne Hn. unfold reachable. destruct inputs as [|i0 inputs]; [congruence|].
    apply (@reach_loop_spec s (i0 :: inputs) W).
    - intros x [Hx|[]]. apply In_iter, nodup_In in Hx. split; [apply Hn; exact Hx|]. exists x. split; [exact Hx|apply conn_refl].
    - intros x Hx. left. apply In_iter, nodup_In. exact Hx.
    - intros x y e [].
    - constructor.
    - rewrite (Permutation_length (iter_perm _)). cbn [length].
      assert (length (nodup Nat.eq_dec (i0 :: inputs)) <= length (i0 :: inputs)) as K by (apply NoDup_incl_length; [apply NoDup_nodup|intros x Hx; apply nodup_In in Hx; exact Hx]).
      cbn [length] in K. lia.
  Qed.
  Theorem reachable_edge_spec s n e : wf s -> on s n e ->
    exists l, reachable_edge iter e s = (s, Some l) /\ NoDup l /\ forall m, In m l <-> connected s n m.
  Proof.
    intros W He. destruct (on_edge W He) as (ed & E & D). unfold reachable_edge, bind, get_edge. rewrite E, D.
    assert (on s (e_n1 ed) e) as H1.
    { destruct (kinds W He E) as [(_ & -> & _)|(m & a2 & _ & (p & q & _ & <- & _ & Hp & _) & _)]; [exact He|].
      exists (snd p). rewrite <- surjective_pairing. exact Hp. }
    destruct (@reachable_spec s [e_n1 ed] W) as (l & El & Hl & Hin); [discriminate|intros m [<-|[]]; apply (on_node H1)|].
    exists l. split; [exact El|]. split; [exact Hl|]. intros m. rewrite Hin. split.
    - intros (x & [<-|[]] & Hc). exact (connected_trans (connected_step He H1) Hc).
    - intros Hc. exists (e_n1 ed). split; [left; reflexivity|]. exact (connected_trans (connected_step H1 He) Hc).
  Qed.

  (** ** check_correct and check_connected *)
  Lemma check_edges_ok s n : wf s -> forall es i, (forall k e, nth_error es k = Some e -> slot s (n, i + k) = Some e) ->
    check_edges n i es s = (s, Some tt).
  Proof.
    intros W. induction es as [|e es IH]; intros i H; [reflexivity|]. cbn [check_edges].
    assert (slot s (n, i) = Some e) as S0 by (rewrite <- (Nat.add_0_r i); apply H; reflexivity).
    destruct (wf_slot W S0) as (ed & E & D & Hin & _). unfold bind at 1, check_edge. unfold bind at 1, get_edge. rewrite E, D.
    assert (mem n (map fst (ends ed)) = true) as -> by (apply mem_In, in_map_iff; exists (n, i); auto).
    unfold bind at 1, guard, ret.
    assert ((Nat.eqb (e_n1 ed) n && Nat.eqb (e_a1 ed) i) || match e_2 ed with Some (m, a) => Nat.eqb m n && Nat.eqb a i | None => false end = true) as ->.
    { unfold ends in Hin. destruct Hin as [K|K]; [injection K as -> ->; rewrite !Nat.eqb_refl; reflexivity|].
      destruct (e_2 ed) as [[m a]|]; [|destruct K]. destruct K as [K|[]]. injection K as -> ->. rewrite !Nat.eqb_refl. apply orb_true_r. }
    apply IH. intros k f Hf. replace (S i + k) with (i + S k) by lia. apply H. exact Hf.
  Qed.
  Theorem check_correct_ok s ns : wf s -> (forall n, In n ns -> is_node s n) -> check_correct iter ns false s = (s, Some tt).
  Proof.
    intros W H. unfold check_correct, bind at 1.
    assert (mfor ns (fun n => bind (node_edges n) (fun es => check_edges n 0 es)) s = (s, Some tt)) as ->; [|reflexivity].
    induction ns as [|n ns IH]; [reflexivity|]. cbn [mfor]. destruct (is_node_Some (H n (or_introl eq_refl))) as (nd & Hn).
    unfold bind at 1. unfold bind at 1. rewrite (node_edges_ok Hn). rewrite (@check_edges_ok s n W).
    - apply IH. intros m Hm. apply H. right. exact Hm.
    - intros k e Hk. apply (slot_intro Hn Hk).
  Qed.
  (** check_connected accepts exactly the connected networks; the path may leave the given nodes *)
  Theorem check_connected_spec s n ns : wf s -> (forall m, In m (n :: ns) -> is_node s m) ->
    (check_connected iter (n :: ns) s = (s, Some tt) <-> forall m, In m ns -> connected s n m) /\
    (check_connected iter (n :: ns) s = (s, Some tt) \/ check_connected iter (n :: ns) s = (s, None)).
  Proof.
    intros W H. destruct (@reachable_spec s [n] W) as (l & El & Hl & Hin); [discriminate|intros m [<-|[]]; apply H; left; reflexivity|].
    unfold check_connected, bind. rewrite El. unfold guard, ret, fail.
    destruct (forallb (fun m => mem m l) (n :: ns)) eqn:Q.
    - split; [|auto]. split; [|reflexivity]. intros _ m Hm. rewrite forallb_forall in Q. specialize (Q m (or_intror Hm)). apply mem_In, Hin in Q.
      destruct Q as (x & [<-|[]] & Q). exact Q.
    - split; [|auto]. split; [discriminate|]. intros Hc. exfalso. assert (forallb (fun m => mem m l) (n :: ns) = true) as Q'; [|congruence].
      apply forallb_forall. intros m Hm. apply mem_In, Hin. exists n. split; [left; reflexivity|]. destruct Hm as [<-|Hm]; [apply conn_refl|apply Hc; exact Hm].
  Qed.
End GQ.
