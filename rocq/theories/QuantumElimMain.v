(** * QuantumElimMain: eliminate_identities, contract and eval *)
From Verif Require Import Prelude Algebra Tensor TensorFacts Einsum EinsumFacts NetworkFacts Graph GraphBase GraphContract GraphOps GraphValue GraphConnect GraphJoin GraphSched GraphQuery GraphQueryFacts GraphLaws GraphTotal GraphCopy GraphCopyFacts GraphDensity GraphLoose GraphTidy NetIso CopyTensor PathContract PathFacts Quantum QuantumSpec QuantumFacts QuantumNodes QuantumElim QuantumElimSpec QuantumElimStep QuantumElimGeo QuantumElimLoop.
Set Implicit Arguments.
Unset Strict Implicit.

Section Main.
  Context {R : cjr}.
  Notation st := (@st R).
  Implicit Types (s : st) (e f g x y : eid) (n m : nid) (q : quop) (phi : eid -> eid).
  Variable iter : list nat -> list nat.
  Hypothesis iter_perm : forall l, Permutation (iter l) l.

  Lemma nth_error_ext A (l l' : list A) : (forall k, nth_error l k = nth_error l' k) -> l = l'.
  Proof.
    revert l'. induction l as [|x l IH]; intros [|y l'] H; [reflexivity|discriminate (H 0)|discriminate (H 0)|].
    pose proof (H 0) as K. injection K as ->. f_equal. apply IH. intros k. apply (H (S k)).
  Qed.
  Lemma geo_out s0 E ns s phi cur n : geo s0 E ns s phi cur -> is_node s0 n -> ~ In n ns -> s_nodes s n = s_nodes s0 n.
  Proof.
    intros G Hn Hi. pose proof Hn as Hn'. apply is_node_Some in Hn'. destruct Hn' as [d0 H0]. destruct (g_same G H0) as (d & H1 & Ht & Hm & Hl). rewrite H1, H0. f_equal.
    destruct d as [t es nms], d0 as [t0 es0 nms0]. cbn in *. subst. f_equal. apply nth_error_ext. intros k. pose proof (g_out (r := (n, k)) G Hn Hi) as K.
    unfold slot in K. cbn in K. rewrite H1, H0 in K. exact K.
  Qed.
  Lemma inv_reduced s0 q ns s phi nd dd : inv s0 q ns s phi [] nd dd -> reduced s0 q ns s (map snd nd) phi.
  Proof.
    intros V. pose proof (v_geo V) as G. cbn [app] in G. pose proof (g_wf G) as W. split.
    - exact W.
    - apply (g_nodup G).
    - apply (g_node G).
    - intros n m e Hn [k Hk] [j Hj]. apply (g_closed (r := (n, k)) (r' := (m, j)) G Hn Hk Hj).
    - apply (g_inj G).
    - intros x. rewrite (g_open G x). split.
      + intros (n & Hn & Ho). apply (open_oslot n x W) in Ho. destruct Ho as (k & Ho). exists (n, k). auto.
      + intros (r & Hr & Ho). exists (fst r). split; [exact Hr|]. apply (open_oslot _ x W). exists (snd r). rewrite <- surjective_pairing. exact Ho.
    - apply (g_dim G).
    - apply (g_val G).
    - intros n Hn K. destruct (v_plain V Hn K) as [[]|H]. apply in_map_iff. exists (n, n). auto.
    - apply (g_in G).
    - intros n d Hd. destruct (g_same G Hd) as (d' & H1 & H2 & H3 & _). eauto.
    - intros n Hn Hi. apply in_map_iff in Hn. destruct Hn as ([m n'] & <- & Hn). apply (v_done V Hn). exact Hi.
    - intros n Hn Hi. apply (geo_out G Hn Hi).
    - apply (g_edges G).
  Qed.
  Theorem eliminate_ok s q ns todo : wf s -> oper s q ns -> copies s q -> Permutation ns todo ->
    exists s' nd dd phi, eliminate (q_cps q) todo ([], []) s = (s', Some (nd, dd)) /\ reduced s q ns s' (map snd nd) phi.
  Proof.
    intros W O C P. destruct (eliminate_inv W O C P) as (s' & phi & [nd dd] & H1 & H2). exists s', nd, dd, phi. split; [exact H1|]. apply (inv_reduced H2).
  Qed.

  (** ** the operator over the new edges *)
  Definition after q phi (nd : list (nid * nid)) : quop :=
    Qu (map phi (q_out q)) (map phi (q_in q)) (cps_of nd (q_ref q)) (map phi (q_ign q))
       (filter (fun n => match dget nd n with Some m => Nat.eqb m n | None => false end) (q_cps q)).
  Lemma after_edges q phi nd : q_edges (after q phi nd) = map phi (q_edges q).
  Proof. unfold q_edges. cbn. rewrite !map_app. reflexivity. Qed.
  Lemma In_cps_of nd l m : In m (cps_of nd l) <-> exists r, In r l /\ dget nd r = Some m.
  Proof.
    unfold cps_of. rewrite in_flat_map. split.
    - intros (r & H1 & H2). exists r. split; [exact H1|]. destruct (dget nd r); [destruct H2 as [<-|[]]; reflexivity|destruct H2].
    - intros (r & H1 & H2). exists r. split; [exact H1|]. rewrite H2. left. reflexivity.
  Qed.
  Lemma NoDup_map_in A B (f : A -> B) (l : list A) : NoDup l -> (forall x y : A, In x l -> In y l -> f x = f y -> x = y) -> NoDup (map f l).
  Proof.
    induction l as [|x l IH]; cbn; [constructor|]. intros HN Hi. apply NoDup_cons_iff in HN. destruct HN as [Hx HN]. constructor.
    - intros K. apply in_map_iff in K. destruct K as (y & K1 & K2). apply Hx. rewrite (Hi x y); auto.
    - apply IH; [exact HN|]. intros y z Hy Hz. apply Hi; auto.
  Qed.

  Section After.
    Variables (s0 : st) (q : quop) (ns : list nid) (s : st) (phi : eid -> eid) (nd : list (nid * nid)) (dd : list (eid * eid)).
    Hypothesis W0 : wf s0.
    Hypothesis O0 : oper s0 q ns.
    Hypothesis Cp : copies s0 q.
    Hypothesis L0 : linked s0 q ns.
    Hypothesis V : inv s0 q ns s phi [] nd dd.
    Let G : geo s0 (q_edges q) ns s phi (map snd nd) := v_geo V.
    Let W : wf s := g_wf G.
    Let cur := map snd nd.

    Lemma keys_nodup : NoDup (map fst nd).
    Proof. pose proof (v_keys V) as K. rewrite app_nil_r in K. exact K. Qed.
    Lemma out_in_edges e : In e (q_out q ++ q_in q) -> In e (q_edges q).
    Proof. intros H. unfold q_edges. rewrite app_assoc. apply in_or_app. left. exact H. Qed.
    Lemma conn_cur n m : connected s n m -> In n cur -> In m cur.
    Proof. induction 1 as [n|n m m' e K IH H1 H2]; [auto|]. intros Hn. destruct H1 as [k H1], H2 as [j H2]. apply (g_closed (r := (m, k)) (r' := (m', j)) G (IH Hn) H1 H2). Qed.
    Lemma after_oper : oper s (after q phi nd) cur.
    Proof.
      split.
      - apply (g_nodup G).
      - intros m. split.
        + intros Hm. destruct (v_link V L0 Hm) as [(e & n & H1 & H2 & H3)|[[[] _]|(r & H1 & H2)]].
          * exists n. split; [left; exists (phi e); split; [cbn; rewrite <- map_app; apply in_map; exact H1|exact H2]|exact H3].
          * exists m. split; [right; cbn; apply In_cps_of; exists r; split; [exact H1|apply (dget_NoDup keys_nodup H2)]|constructor].
        + intros (n & [(e & H1 & H2)|H1] & H3); apply (conn_cur H3).
          * cbn in H1. rewrite <- map_app in H1. apply in_map_iff in H1. destruct H1 as (e' & <- & H1). destruct H2 as [k H2]. apply (phi_at (r := (n, k)) G (out_in_edges H1) H2).
          * cbn in H1. apply In_cps_of in H1. destruct H1 as (r & _ & H1). apply dget_In in H1. apply in_map_iff. exists (r, n). auto.
      - rewrite after_edges. apply NoDup_map_in; [apply (op_edges O0)|]. intros x y Hx Hy. apply (g_inj G Hx Hy).
      - intros x. rewrite after_edges, in_map_iff. pose proof (rd_open (inv_reduced V) x) as K. fold cur in K. rewrite K. split; intros (e & H1 & H2); exists e; auto.
      - apply (v_some V).
      - apply (g_node G).
      - apply (g_named G).
      - intros n Hn. cbn in Hn. apply filter_In in Hn. destruct Hn as [_ Hn]. destruct (dget nd n) as [m|] eqn:E; [|discriminate]. apply Nat.eqb_eq in Hn. subst m.
        apply dget_In in E. apply in_map_iff. exists (n, n). auto.
    Qed.
    Lemma after_same : same_oper s0 q ns s (after q phi nd) cur.
    Proof.
      pose proof after_oper as O. assert (forall l, (forall e, In e l -> In e (q_edges q)) -> map (edim s) (map phi l) = map (edim s0) l) as Hd.
      { intros l Hl. rewrite map_map. apply map_ext_in. intros e He. apply (g_dim G). apply Hl, He. }
      assert (forall e, In e (q_out q) -> In e (q_edges q)) as Io by (intros e He; unfold q_edges; apply in_or_app; auto).
      assert (forall e, In e (q_in q) -> In e (q_edges q)) as Ii by (intros e He; unfold q_edges; apply in_or_app; right; apply in_or_app; auto).
      assert (forall e, In e (q_ign q) -> In e (q_edges q)) as Ig by (intros e He; unfold q_edges; apply in_or_app; right; apply in_or_app; auto).
      split; [exact W|exact O|apply (Hd _ Io)|apply (Hd _ Ii)|apply (Hd _ Ig)| |intros n Hn Hi; apply (geo_out G Hn Hi)].
      intros i j g Vi Vj Vg.
      assert (forall v l, valid v (map (edim s0) l) -> length v = length l) as Len by (intros v l H; apply valid_length in H; rewrite map_length in H; exact H).
      destruct (entry_exists W0 O0 (Len _ _ Vi) (Len _ _ Vj) (Len _ _ Vg)) as (a & A1 & A2 & A3 & ->).
      set (b := binds Nat.eq_dec (fun _ => 0) (map phi (q_edges q)) (map a (q_edges q))).
      assert (forall e, In e (q_edges q) -> b (phi e) = a e) as Hb.
      { assert (map b (map phi (q_edges q)) = map a (q_edges q)) as K.
        { apply map_binds; [rewrite <- (after_edges q phi nd); apply (op_edges O)|rewrite !map_length; reflexivity]. }
        rewrite map_map in K. intros e He. apply (ext_in_map K e He). }
      assert (forall l, (forall e, In e l -> In e (q_edges q)) -> map b (map phi l) = map a l) as Hm.
      { intros l Hl. rewrite map_map. apply map_ext_in. intros e He. apply Hb, Hl, He. }
      rewrite (entry_asg (a := b) W O); [|cbn; rewrite (Hm _ Io); exact A1|cbn; rewrite (Hm _ Ii); exact A2|cbn; rewrite (Hm _ Ig); exact A3].
      symmetry. apply (g_val G); [|exact Hb].
      assert (forall v l e, valid v (map (edim s0) l) -> map a l = v -> In e l -> a e < edim s0 e) as Hlt.
      { intros v l e Hv Ev He. subst v. clear - Hv He. induction l as [|x l IH]; [destruct He|]. inversion Hv; subst. destruct He as [<-|He]; [assumption|apply IH; assumption]. }
      intros e He. unfold q_edges in He. apply in_app_or in He. destruct He as [He|He]; [apply (Hlt i (q_out q) e Vi A1 He)|].
      apply in_app_or in He. destruct He as [He|He]; [apply (Hlt j (q_in q) e Vj A2 He)|apply (Hlt g (q_ign q) e Vg A3 He)].
    Qed.
    Lemma after_cps n : In n (q_cps (after q phi nd)) -> In n (q_cps q) /\ In (n, n) nd.
    Proof.
      intros H. cbn in H. apply filter_In in H. destruct H as [H1 H2]. split; [exact H1|]. destruct (dget nd n) as [m|] eqn:E; [|discriminate]. apply Nat.eqb_eq in H2. subst m. apply dget_In, E.
    Qed.
    Lemma after_copies : copies s (after q phi nd).
    Proof.
      intros n Hn. apply after_cps in Hn. destruct Hn as [Hn _]. destruct (Cp Hn) as (d0 & k & d & H1 & H2). destruct (g_same G H1) as (d1 & H3 & H4 & _). exists d1, k, d. split; [exact H3|]. rewrite H4. exact H2.
    Qed.
    Lemma after_ident : no_inner_identity s (after q phi nd).
    Proof.
      intros n [Hn (d1 & H1 & H2)]. apply after_cps in Hn. destruct Hn as [Hn Hi]. apply (v_done V Hi). split; [exact Hn|].
      destruct (Cp Hn) as (d0 & _ & _ & H0 & _). exists d0. split; [exact H0|]. destruct (g_same G H0) as (d2 & H3 & H4 & _). assert (d2 = d1) as -> by congruence. rewrite <- H4. exact H2.
    Qed.
  End After.

  (** ** simplify *)
  Lemma look_map (dd : list (nat * nat)) (f : nat -> nat) l s : (forall e, In e l -> dget dd e = Some (f e)) -> mmap (look dd) l s = (s, Some (map f l)).
  Proof.
    induction l as [|e l IH]; intros H; [reflexivity|]. cbn [mmap map]. unfold bind at 1. unfold look at 1. rewrite (H e (or_introl eq_refl)). unfold ret at 1. unfold bind.
    rewrite IH by (intros x Hx; apply H; right; exact Hx). reflexivity.
  Qed.
  Lemma look_inv (dd : list (nat * nat)) l : forall s s' l', mmap (look (R := R) dd) l s = (s', Some l') -> s' = s /\ Forall2 (fun e x => dget dd e = Some x) l l'.
  Proof.
    induction l as [|e l IH]; intros s s' l' E; cbn [mmap] in E; [injection E as <- <-; auto|].
    apply bind_inv in E. destruct E as (x & s1 & E1 & E). apply bind_inv in E. destruct E as (xs & s2 & E2 & E). injection E as <- <-.
    unfold look in E1. destruct (dget dd e) as [y|] eqn:Q; [|discriminate]. injection E1 as <- <-. apply IH in E2. destruct E2 as [-> E2]. auto.
  Qed.
  Lemma simplify_start s q ns : wf s -> oper s q ns -> copies s q ->
    exists s' phi nd dd, inv s q ns s' phi [] nd dd /\ simplify iter q s =
      bind (mmap (look dd) (q_in q)) (fun in' => bind (mmap (look dd) (q_out q)) (fun out' => bind (mmap (look dd) (q_ign q)) (fun ign' =>
        let q' := Qu out' in' (cps_of nd (q_ref q)) ign' (filter (fun n => match dget nd n with Some m => Nat.eqb m n | None => false end) (q_cps q)) in
        bind (check_network iter q') (fun _ => ret (q', dd))))) s'.
  Proof.
    intros W O C. destruct (q_nodes_ok iter_perm W O) as (l & H1 & P & _).
    assert (Permutation ns (iter l)) as P' by (rewrite P; symmetry; apply iter_perm).
    destruct (eliminate_inv W O C P') as (s' & phi & [nd dd] & H2 & H3). exists s', phi, nd, dd. split; [exact H3|].
    unfold simplify. unfold bind at 1. rewrite H1. unfold bind at 1. rewrite H2. reflexivity.
  Qed.
  Lemma simplify_end s q ns s' phi nd dd : wf s -> oper s q ns -> copies s q -> linked s q ns -> inv s q ns s' phi [] nd dd -> (forall e, In e (q_edges q) -> dget dd e = Some (phi e)) ->
    bind (mmap (look dd) (q_in q)) (fun in' => bind (mmap (look dd) (q_out q)) (fun out' => bind (mmap (look dd) (q_ign q)) (fun ign' =>
        let q' := Qu out' in' (cps_of nd (q_ref q)) ign' (filter (fun n => match dget nd n with Some m => Nat.eqb m n | None => false end) (q_cps q)) in
        bind (check_network iter q') (fun _ => ret (q', dd))))) s' = (s', Some (after q phi nd, dd)).
  Proof.
    intros W O C L V H. unfold q_edges in H.
    unfold bind at 1. rewrite (@look_map dd phi) by (intros e He; apply H, in_or_app; right; apply in_or_app; auto).
    unfold bind at 1. rewrite (@look_map dd phi) by (intros e He; apply H, in_or_app; auto).
    unfold bind at 1. rewrite (@look_map dd phi) by (intros e He; apply H, in_or_app; right; apply in_or_app; auto). cbv zeta.
    unfold bind. fold (after q phi nd). rewrite (check_network_ok iter_perm (g_wf (v_geo V)) (after_oper O L V)). reflexivity.
  Qed.

  Lemma after_simplified s q ns s' phi nd dd : wf s -> oper s q ns -> copies s q -> linked s q ns -> inv s q ns s' phi [] nd dd -> (forall e, In e (q_edges q) -> dget dd e = Some (phi e)) ->
    simplified s q ns s' (after q phi nd) (map snd nd) dd phi.
  Proof.
    intros W O C L V H. split; [apply (after_same W O L V)|apply (after_copies C V)|apply (after_ident C V)|apply (inv_reduced V)|reflexivity|reflexivity|reflexivity|exact H].
  Qed.
  Theorem simplify_ok s q ns : wf s -> oper s q ns -> copies s q -> linked s q ns -> paired s q ->
    exists s' q' ns' dd phi, simplify iter q s = (s', Some (q', dd)) /\ simplified s q ns s' q' ns' dd phi.
  Proof.
    intros W O C L P. destruct (simplify_start W O C) as (s' & phi & nd & dd & V & E).
    assert (forall e, In e (q_edges q) -> dget dd e = Some (phi e)) as H.
    { intros e He. destruct (v_good V P He) as [(_ & r & [] & _)|[H _]]. exact H. }
    exists s', (after q phi nd), (map snd nd), dd, phi. split; [rewrite E; apply (simplify_end W O C L V H)|apply (after_simplified W O C L V H)].
  Qed.
  Theorem simplify_sound s q ns s1 q1 dd1 : wf s -> oper s q ns -> copies s q -> linked s q ns -> simplify iter q s = (s1, Some (q1, dd1)) ->
    exists ns' phi, simplified s q ns s1 q1 ns' dd1 phi.
  Proof.
    intros W O C L E. destruct (simplify_start W O C) as (s' & phi & nd & dd & V & E'). pose proof (g_wf (v_geo V)) as W'.
    assert (forall e, In e (q_edges q) -> dget dd e = Some (phi e)) as H.
    { rewrite E' in E. apply bind_inv in E. destruct E as (in' & t1 & F1 & E). apply look_inv in F1. destruct F1 as [-> F1].
      apply bind_inv in E. destruct E as (out' & t2 & F2 & E). apply look_inv in F2. destruct F2 as [-> F2].
      apply bind_inv in E. destruct E as (ign' & t3 & F3 & E). apply look_inv in F3. destruct F3 as [-> F3]. cbv zeta in E.
      set (q' := Qu out' in' (cps_of nd (q_ref q)) ign' (filter (fun n => match dget nd n with Some m => Nat.eqb m n | None => false end) (q_cps q))) in *.
      apply bind_inv in E. destruct E as (u & t4 & F4 & _).
      assert (Forall2 (fun e x => dget dd e = Some x) (q_edges q) (q_edges q')) as FE by (unfold q_edges; cbn; repeat apply Forall2_app; assumption).
      assert (forall l l' x, Forall2 (fun e x => dget dd e = Some x) l l' -> In x l' -> exists e, In e l /\ dget dd e = Some x) as Fr.
      { intros l l' x F. induction F as [|e y l l' Hy F IH]; [intros []|]. intros [<-|Hx]; [exists e; split; [left; reflexivity|exact Hy]|]. destruct (IH Hx) as (e' & H1 & H2). exists e'. split; [right; exact H1|exact H2]. }
      assert (forall l l' e, Forall2 (fun e x => dget dd e = Some x) l l' -> In e l -> exists x, In x l' /\ dget dd e = Some x) as Fl.
      { intros l l' x F. induction F as [|e y l l' Hy F IH]; [intros []|]. intros [<-|Hx]; [exists y; split; [left; reflexivity|exact Hy]|]. destruct (IH Hx) as (e' & H1 & H2). exists e'. split; [right; exact H1|exact H2]. }
      assert (forall e, In e (q_edges q) -> dget dd e = Some (phi e) \/ exists y, dget dd e = Some y /\ dead s' (map snd nd) dd y) as Hd.
      { intros e He. destruct (v_dict V He) as [(_ & r & [] & _)|K]. exact K. }
      assert (forall x, In x (q_edges q') -> exists n, on s' n x) as Hon.
      { intros x Hx. destruct (Fr _ _ _ FE Hx) as (e & He & Hx'). destruct (Hd e He) as [K|(y & K1 & (m & j & h & _ & _ & K2 & _))].
        - assert (x = phi e) as -> by congruence. destruct (phi_slot (v_geo V) He) as (r & _ & Hr). exists (fst r), (snd r). rewrite <- surjective_pairing. apply Hr.
        - assert (x = y) as -> by congruence. exists m, j. apply K2. }
      destruct (@q_nodes_spec R iter iter_perm s' q' W') as (l & Q1 & Q2 & Q3 & Q4).
      { intros e He. apply Hon. apply out_in_edges. exact He. }
      { intros n Hn. cbn in Hn. apply In_cps_of in Hn. destruct Hn as (r & _ & Hn). apply dget_In in Hn. apply (g_node (v_geo V)). apply in_map_iff. exists (r, n). auto. }
      { destruct (map snd nd) as [|m cur] eqn:Ec; [exfalso; apply (v_some V); exact Ec|].
        assert (In m (map snd nd)) as Hm by (rewrite Ec; left; reflexivity).
        destruct (v_link V L Hm) as [(e & n & H1 & _)|[[[] _]|(r & H1 & H2)]].
        - left. cbn. intros K. apply app_eq_nil in K. destruct K as [-> ->]. inversion F1. inversion F2. destruct (q_out q), (q_in q); try discriminate. destruct H1.
        - right. cbn. intros K. assert (In m (cps_of nd (q_ref q))) as Q by (apply In_cps_of; exists r; split; [exact H1|apply (dget_NoDup (keys_nodup V) H2)]). rewrite K in Q. destruct Q. }
      destruct (get_subgraph_dangling_spec iter_perm W' Q3) as (ds & D1 & _ & D2).
      assert (forall x, In x (q_edges q') <-> In x ds) as Hset.
      { unfold check_network in F4. apply bind_inv in F4. destruct F4 as (u1 & t5 & G1 & F4). assert (t5 = s') as -> by (unfold guard in G1; destruct (forallb _ _); [injection G1 as <- _; reflexivity|discriminate]).
        unfold bind in F4. rewrite Q1, D1 in F4. apply guard_inv in F4. destruct F4 as [F4 _]. rewrite same_set_spec in F4. intros x. rewrite <- F4. unfold q_edges. rewrite !in_app_iff. tauto. }
      intros e He. destruct (Hd e He) as [K|(y & K1 & (m & j & h & K2 & K3 & K4 & K5 & K6))]; [exact K|exfalso].
      destruct (Fl _ _ _ FE He) as (y' & H1 & H2). assert (y' = y) as -> by congruence. apply Hset in H1. apply D2 in H1. destruct H1 as (n & Hn & Hy).
      assert (n = m) as ->.
      { assert (on s' n y) as [k Hk] by (destruct Hy as [(k & Hk & _)|(m' & _ & ([? k] & p & _ & K & _ & Hk & _))]; [exists k; exact Hk|cbn in K; subst; exists k; exact Hk]).
        pose proof (oslot_unique W' K4 Hk) as K. congruence. }
      assert (In h ds) as Hh. { apply D2. exists m. split; [exact Hn|]. left. apply (open_oslot m h W'). exists (1 - j). exact K5. }
      apply Hset in Hh. destruct (Fr _ _ _ FE Hh) as (e' & _ & Hh'). apply dget_In in Hh'. apply (K6 e' Hh'). }
    rewrite E', (simplify_end W O C L V H) in E. injection E as <- <- <-. exists (map snd nd), phi. apply (after_simplified W O C L V H).
  Qed.

  (** ** contract *)
  Lemma oper_boundary s q ns e : wf s -> oper s q ns -> boundary s ns e <-> In e (q_edges q).
  Proof. intros W O. unfold boundary. apply (oper_closed_dangling e O). Qed.
  Lemma open_loose s n e : wf s -> open_on s n e -> loose s e.
  Proof.
    intros W H. apply (open_oslot n e W) in H. destruct H as (k & H1 & H2). split; [apply (slot_lt W H1)|]. eexists. split; [exact H2|reflexivity].
  Qed.
  Lemma loose_open s n e : wf s -> on s n e -> loose s e -> open_on s n e.
  Proof.
    intros W [k Hk] [_ (ed & H1 & H2)]. exists k. split; [exact Hk|]. intros p Hp. rewrite (dangling_slot W Hp H1 H2). symmetry. apply (dangling_slot W Hk H1 H2).
  Qed.
  Lemma named_nameable s n : wf s -> named s n -> nameable s n.
  Proof. intros W H nd E. destruct (H nd E) as [_ K]. rewrite K. pose proof (wf_rank W E). lia. Qed.

  (** the tensor of the node to which a closed operator is contracted *)
  Lemma contract_net alg s q ns order ignore : wf s -> oper s q ns -> algorithm_ok alg ->
    (ignore = true \/ exists o, order = Some o /\ Permutation o (q_edges q)) ->
    exists s' N nd, base iter alg ns order ignore s = (s', Some N) /\ s_nodes s' N = Some nd /\ Permutation (n_edges nd) (q_edges q) /\
      (forall o, ignore = false -> order = Some o -> n_edges nd = o) /\ shape (n_t nd) = map (edim s) (n_edges nd) /\
      (forall a, (forall e, In e (q_edges q) -> a e < edim s e) -> elt (n_t nd) (map a (n_edges nd)) = netval s ns a) /\
      (forall cps, same_oper s q ns s' (Qu (q_out q) (q_in q) [N] (q_ign q) (filter (Nat.eqb N) cps)) [N]).
  Proof.
    intros W O Ha Ho. destruct (@base_ok R iter iter_perm alg ns order ignore s W (op_some O)) as (s' & N & E & CT).
    { intros n Hn. split; [apply (op_node O Hn)|apply (named_nameable W (op_named O Hn))]. }
    { exact Ha. }
    { destruct Ho as [Ho|(o & -> & P)]; [left; exact Ho|]. right. split; [apply (Permutation_NoDup (Permutation_sym P)), (op_edges O)|].
      intros e. rewrite (oper_boundary e W O). split; apply Permutation_in; [exact P|symmetry; exact P]. }
    destruct (co_node CT) as (nd & H1 & H2 & H3 & H4 & H5 & H6). pose proof (co_wf CT) as W'.
    assert (Permutation (n_edges nd) (q_edges q)) as P.
    { apply NoDup_Permutation; [exact H2|apply (op_edges O)|]. intros e. rewrite H3. apply (oper_boundary e W O). }
    assert (forall a, (forall e, In e (q_edges q) -> a e < edim s e) -> elt (n_t nd) (map a (n_edges nd)) = netval s ns a) as Hv.
    { intros a K. rewrite H6; [rewrite (nodup_fixed_point Nat.eq_dec (op_nodup O)); reflexivity|]. intros e He. apply K. apply (oper_boundary e W O). exact He. }
    exists s', N, nd. split; [exact E|]. split; [exact H1|]. split; [exact P|]. split; [exact H4|]. split; [exact H5|]. split; [exact Hv|].
    intros cps. set (q' := Qu (q_out q) (q_in q) [N] (q_ign q) (filter (Nat.eqb N) cps)).
    assert (q_edges q' = q_edges q) as Eq by reflexivity.
    assert (forall e, on s' N e <-> In e (q_edges q)) as HN. { intros e. rewrite (on_In e H1). split; apply Permutation_in; [exact P|symmetry; exact P]. }
    assert (forall e, on s' N e -> open_on s' N e) as Hop.
    { intros e He. apply (loose_open W' He). apply (@stay_base R iter alg ns order ignore s s' (Some N) E). apply HN in He. apply (op_open O) in He. destruct He as (n & _ & He). apply (open_loose W He). }
    assert (forall m, connected s' N m -> m = N) as Hc.
    { intros m K. remember N as N0 eqn:EN in K. induction K as [n|n m m' e K IH K1 K2]; [exact EN|]. subst n. rewrite (IH eq_refl) in K1. destruct (Hop e K1) as (k & _ & U). destruct K2 as [j K2]. pose proof (U _ K2) as Q. congruence. }
    assert (forall e, In e (q_edges q) -> edim s' e = edim s e) as Hd.
    { intros e He. pose proof (wf_fits W' H1) as Ft. unfold fits in Ft. cbn in Ft. rewrite H5 in Ft. apply (ext_in_map (l := n_edges nd)); [symmetry; exact Ft|]. apply (Permutation_in _ (Permutation_sym P) He). }
    assert (oper s' q' [N]) as O'.
    { split.
      - repeat constructor. intros [].
      - intros m. split.
        + intros [<-|[]]. exists N. split; [right; left; reflexivity|constructor].
        + intros (n & [(e & K1 & K2)|[<-|[]]] & K3); [|rewrite (Hc m K3); left; reflexivity].
          assert (on s' N e) as K4 by (apply HN; apply (out_in_edges K1)). destruct (Hop e K4) as (k & _ & U). destruct K2 as [j K2]. pose proof (U _ K2) as Q. assert (n = N) as -> by congruence.
          rewrite (Hc m K3). left. reflexivity.
      - rewrite Eq. apply (op_edges O).
      - intros e. rewrite Eq, <- HN. split; [intros K; exists N; split; [left; reflexivity|apply Hop, K]|intros (n & [<-|[]] & K); destruct K as (k & K & _); exists k; exact K].
      - discriminate.
      - intros n [<-|[]]. unfold is_node. congruence.
      - intros n [<-|[]]. apply (base_named iter_perm Ha (op_named O) E).
      - intros n Hn. cbn in Hn. apply filter_In in Hn. destruct Hn as [_ Hn]. apply Nat.eqb_eq in Hn. left. exact Hn. }
    assert (forall l, (forall e, In e l -> In e (q_edges q)) -> map (edim s') l = map (edim s) l) as Hm by (intros l Hl; apply map_ext_in; intros e He; apply Hd, Hl, He).
    split; [exact W'|exact O'| | | | |].
    - apply Hm. intros e He. unfold q_edges. apply in_or_app. auto.
    - apply Hm. intros e He. unfold q_edges. apply in_or_app. right. apply in_or_app. auto.
    - apply Hm. intros e He. unfold q_edges. apply in_or_app. right. apply in_or_app. auto.
    - intros i j g Vi Vj Vg.
      assert (forall v l, valid v (map (edim s) l) -> length v = length l) as Len by (intros v l H; apply valid_length in H; rewrite map_length in H; exact H).
      destruct (entry_exists W O (Len _ _ Vi) (Len _ _ Vj) (Len _ _ Vg)) as (a & A1 & A2 & A3 & ->).
      rewrite (entry_asg (a := a) W' O' A1 A2 A3). rewrite (netval_single a H1 H2). apply Hv.
      assert (forall v l e, valid v (map (edim s) l) -> map a l = v -> In e l -> a e < edim s e) as Hlt.
      { intros v l e Vv Ev He. subst v. clear - Vv He. induction l as [|x l IH]; [destruct He|]. inversion Vv; subst. destruct He as [<-|He]; [assumption|apply IH; assumption]. }
      intros e He. unfold q_edges in He. apply in_app_or in He. destruct He as [He|He]; [apply (Hlt i (q_out q) e Vi A1 He)|].
      apply in_app_or in He. destruct He as [He|He]; [apply (Hlt j (q_in q) e Vj A2 He)|apply (Hlt g (q_ign q) e Vg A3 He)].
    - apply (co_out CT).
  Qed.

  Lemma same_trans s q ns s1 q1 ns1 s2 q2 ns2 : (forall n, In n ns1 -> In n ns \/ ~ is_node s n) ->
    same_oper s q ns s1 q1 ns1 -> same_oper s1 q1 ns1 s2 q2 ns2 -> same_oper s q ns s2 q2 ns2.
  Proof.
    intros Hf A B. split; [apply (so_wf B)|apply (so_oper B)|rewrite (so_rows B); apply (so_rows A)|rewrite (so_cols B); apply (so_cols A)|rewrite (so_ign B); apply (so_ign A)| |].
    - intros i j g Vi Vj Vg. rewrite (so_entry B), (so_entry A); auto; [rewrite (so_rows A); exact Vi|rewrite (so_cols A); exact Vj|rewrite (so_ign A); exact Vg].
    - intros n Hn Hi. pose proof (so_out A Hn Hi) as K. rewrite (so_out B); [exact K| |intros Q; destruct (Hf n Q); contradiction]. unfold is_node in *. rewrite K. exact Hn.
  Qed.
  Lemma contract_from alg s q ns order s1 q1 ns1 dd phi : wf s -> oper s q ns -> simplify iter q s = (s1, Some (q1, dd)) -> simplified s q ns s1 q1 ns1 dd phi ->
    algorithm_ok alg -> order = [] \/ axis_order q order ->
    exists s2 q2 N, contract iter alg q order s = (s2, Some q2) /\ contracted s q ns order s2 q2 N.
  Proof.
    intros W O E Sm Ha Ho. pose proof (sm_same Sm) as A. pose proof (sm_reduced Sm) as Rd. pose proof (so_wf A) as W1. pose proof (so_oper A) as O1.
    assert (q_edges q1 = map phi (q_edges q)) as Eq by (unfold q_edges; rewrite (sm_out Sm), (sm_in Sm), (sm_ign Sm), !map_app; reflexivity).
    destruct (q_nodes_ok iter_perm W1 O1) as (l & Q1 & P & O2).
    assert (forall ord ign (o : list eid), axis_order q o -> (ign = true \/ exists o', ord = Some o' /\ Permutation o' (q_edges q1)) ->
      (ign = false -> exists o', ord = Some o' /\ o' = map phi o) ->
      exists s2 N, base iter alg l ord ign s1 = (s2, Some N) /\ contracted s q ns (if ign then [] else o) s2 (Qu (q_out q1) (q_in q1) [N] (q_ign q1) (filter (Nat.eqb N) (q_cps q1))) N) as K.
    { intros ord ign o Hax Hord Hmap. destruct (contract_net W1 O2 Ha Hord) as (s2 & N & nd & B1 & B2 & B3 & B4 & B5 & B6 & B7). exists s2, N. split; [exact B1|].
      assert (exists o2, axis_order q o2 /\ n_edges nd = map phi o2 /\ (ign = false -> o2 = o)) as (o2 & X1 & X2 & X3).
      { destruct ign.
        - rewrite Eq in B3. destruct (Permutation_map_inv _ _ B3) as (o2 & Y1 & Y2). exists o2. split; [exact (Permutation_sym Y2)|]. split; [exact Y1|discriminate].
        - destruct (Hmap eq_refl) as (o' & Y1 & Y2). exists o. split; [exact Hax|]. split; [rewrite (B4 _ eq_refl Y1); exact Y2|reflexivity]. }
      assert (forall e, In e o2 <-> In e (q_edges q)) as Io by (intros e; split; apply Permutation_in; [exact X1|exact (Permutation_sym X1)]).
      split.
      - apply (same_trans (rd_from Rd) A). specialize (B7 (q_cps q1)). split; try apply B7.
        + intros i j g Vi Vj Vg. rewrite (so_entry B7 Vi Vj Vg). apply entry_perm. symmetry. exact P.
        + intros n Hn Hi. apply (so_out B7 Hn). intros Q. apply Hi. apply (Permutation_in _ (Permutation_sym P) Q).
      - reflexivity.
      - exists nd, o2. split; [exact B2|]. split; [exact X1|]. split; [intros Hne; destruct ign; [contradiction|apply X3; reflexivity]|]. split.
        + rewrite B5, X2, map_map. apply map_ext_in. intros e He. apply (rd_dim Rd). apply Io, He.
        + intros a Hr. set (b := binds Nat.eq_dec (fun _ => 0) (map phi (q_edges q)) (map a (q_edges q))).
          assert (forall e, In e (q_edges q) -> b (phi e) = a e) as Hb.
          { assert (map b (map phi (q_edges q)) = map a (q_edges q)) as Q.
            { apply map_binds; [rewrite <- Eq; apply (op_edges O1)|rewrite !map_length; reflexivity]. }
            rewrite map_map in Q. intros e He. apply (ext_in_map Q e He). }
          replace (map a o2) with (map b (n_edges nd)) by (rewrite X2, map_map; apply map_ext_in; intros e He; apply Hb, Io, He).
          rewrite B6.
          * rewrite (netval_perm s1 b (Permutation_sym P)). symmetry. apply (rd_value Rd Hr Hb).
          * intros x Hx. rewrite Eq in Hx. apply in_map_iff in Hx. destruct Hx as (e & <- & He). rewrite (Hb e He), (rd_dim Rd He). apply Hr, He. }
    unfold contract. unfold bind at 1. rewrite E. cbn [fst snd].
    destruct order as [|e0 order].
    - destruct (K None true (q_edges q)) as (s2 & N & K1 & K2); [apply Permutation_refl|auto|discriminate|].
      exists s2, (Qu (q_out q1) (q_in q1) [N] (q_ign q1) (filter (Nat.eqb N) (q_cps q1))), N. split; [|exact K2]. unfold bind. rewrite Q1, K1. reflexivity.
    - destruct Ho as [Ho|Ho]; [discriminate|]. set (order' := e0 :: order) in *.
      destruct (K (Some (map phi order')) false order' Ho) as (s2 & N & K1 & K2); [right; eexists; split; [reflexivity|rewrite Eq; apply Permutation_map; exact Ho]|intros _; eauto|].
      exists s2, (Qu (q_out q1) (q_in q1) [N] (q_ign q1) (filter (Nat.eqb N) (q_cps q1))), N. split; [|exact K2]. unfold bind.
      rewrite (@look_map dd phi) by (intros e He; apply (sm_dict Sm); apply (Permutation_in _ Ho He)). rewrite Q1, K1. reflexivity.
  Qed.
  Theorem contract_ok alg s q ns order : wf s -> oper s q ns -> copies s q -> linked s q ns -> paired s q -> algorithm_ok alg -> order = [] \/ axis_order q order ->
    exists s' q' N, contract iter alg q order s = (s', Some q') /\ contracted s q ns order s' q' N.
  Proof.
    intros W O C L P Ha Ho. destruct (simplify_ok W O C L P) as (s1 & q1 & ns1 & dd & phi & E & Sm). apply (contract_from W O E Sm Ha Ho).
  Qed.
  Theorem contract_sound alg s q ns order s' q' : wf s -> oper s q ns -> copies s q -> linked s q ns -> algorithm_ok alg -> order = [] \/ axis_order q order ->
    contract iter alg q order s = (s', Some q') -> exists N, contracted s q ns order s' q' N.
  Proof.
    intros W O C L Ha Ho E. destruct (simplify iter q s) as [s1 [[q1 dd]|]] eqn:Es; [|unfold contract, bind in E; rewrite Es in E; discriminate].
    destruct (simplify_sound W O C L Es) as (ns1 & phi & Sm). destruct (contract_from W O Es Sm Ha Ho) as (s2 & q2 & N & E2 & K). rewrite E2 in E. injection E as <- <-. exists N. exact K.
  Qed.

  (** ** eval *)
  Definition eval_order q order : list eid := match order with [] => iter (q_ign q) ++ q_out q ++ q_in q | _ => order end.
  Lemma eval_order_axes q order : order = [] \/ axis_order q order -> axis_order q (eval_order q order).
  Proof.
    intros [->|H]; [|destruct order; [|exact H]]; unfold axis_order, eval_order, q_edges; rewrite iter_perm, Permutation_app_comm, app_assoc; reflexivity.
  Qed.
  Lemma eval_from alg s q ns order s1 q1 N : oper s q ns -> order = [] \/ axis_order q order -> contract iter alg q (eval_order q order) s = (s1, Some q1) -> contracted s q ns (eval_order q order) s1 q1 N ->
    exists T, eval iter alg q order s = (s1, Some T) /\ evaluated s q ns (eval_order q order) T.
  Proof.
    intros O Ho E C. destruct (cn_node C) as (nd & o & H1 & H2 & H3 & H4 & H5). exists (n_t nd). split.
    - unfold eval. fold (eval_order q order). unfold bind at 1. rewrite E. destruct (q_nodes_ok iter_perm (so_wf (cn_same C)) (so_oper (cn_same C))) as (l & Q1 & Q2 & _).
      apply Permutation_length_1_inv in Q2. subst l. unfold bind at 1. rewrite Q1. unfold bind, get_node. rewrite H1. reflexivity.
    - assert (o = eval_order q order) as <-.
      { destruct (eval_order q order) eqn:Eo; [|apply H3; discriminate]. pose proof (eval_order_axes Ho) as P. rewrite Eo in P. apply Permutation_nil in P. unfold axis_order in H2. rewrite P in H2. apply Permutation_sym, Permutation_nil in H2. exact H2. }
      split; [exact H4|exact H5].
  Qed.
  Theorem eval_ok alg s q ns order : wf s -> oper s q ns -> copies s q -> linked s q ns -> paired s q -> algorithm_ok alg -> order = [] \/ axis_order q order ->
    exists s' T, eval iter alg q order s = (s', Some T) /\ evaluated s q ns (eval_order q order) T.
  Proof.
    intros W O C L P Ha Ho. destruct (contract_ok W O C L P Ha (or_intror (eval_order_axes Ho))) as (s1 & q1 & N & E & K). exists s1. apply (eval_from O Ho E K).
  Qed.
  Theorem eval_sound alg s q ns order s' T : wf s -> oper s q ns -> copies s q -> linked s q ns -> algorithm_ok alg -> order = [] \/ axis_order q order ->
    eval iter alg q order s = (s', Some T) -> evaluated s q ns (eval_order q order) T.
  Proof.
    intros W O C L Ha Ho E. destruct (contract iter alg q (eval_order q order) s) as [s1 [q1|]] eqn:Ec; [|unfold eval, bind in E; fold (eval_order q order) in E; rewrite Ec in E; discriminate].
    destruct (contract_sound W O C L Ha (or_intror (eval_order_axes Ho)) Ec) as (N & K). destruct (eval_from O Ho Ec K) as (T' & E' & H). rewrite E' in E. injection E as <- <-. exact H.
  Qed.
  (** the matrix of an operator without ignored edges *)
  Lemma evaluated_matrix s q ns T : wf s -> oper s q ns -> q_ign q = [] -> evaluated s q ns (eval_order q []) T ->
    shape T = rows s q ++ cols s q /\ forall i j, valid i (rows s q) -> valid j (cols s q) -> elt T (i ++ j) = entry s ns q i j [].
  Proof.
    intros W O Hi [H1 H2]. assert (eval_order q [] = q_out q ++ q_in q) as Eo.
    { cbn. rewrite Hi. replace (iter []) with (@nil nat); [reflexivity|]. symmetry. apply Permutation_nil. symmetry. apply iter_perm. }
    rewrite Eo in *. split; [rewrite H1; apply map_app|]. intros i j Vi Vj.
    assert (forall v l, valid v (map (edim s) l) -> length v = length l) as Len by (intros v l H; apply valid_length in H; rewrite map_length in H; exact H).
    assert (length (@nil nat) = length (q_ign q)) as Lg by (rewrite Hi; reflexivity).
    destruct (entry_exists W O (Len _ _ Vi) (Len _ _ Vj) Lg) as (a & A1 & A2 & A3 & ->). rewrite <- A1, <- A2, <- map_app. apply H2.
    assert (forall v l e, valid v (map (edim s) l) -> map a l = v -> In e l -> a e < edim s e) as Hlt.
    { intros v l e Vv Ev He. subst v. clear - Vv He. induction l as [|x l IH]; [destruct He|]. inversion Vv; subst. destruct He as [<-|He]; [assumption|apply IH; assumption]. }
    intros e He. unfold q_edges in He. rewrite Hi, app_nil_r in He. apply in_app_or in He. destruct He as [He|He]; [apply (Hlt i (q_out q) e Vi A1 He)|apply (Hlt j (q_in q) e Vj A2 He)].
  Qed.
End Main.
