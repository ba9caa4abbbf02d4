(** * SatCount: sat_count_tn *)
From Coq Require Import Permutation List Lia ZArith Bool.
From Verif Require Import Prelude Algebra Tensor TensorFacts Einsum EinsumFacts NetworkFacts Graph GraphBase GraphConnect GraphContract GraphOps GraphValue GraphLaws GraphJoin GraphQuery GraphQueryFacts GraphCopy GraphCopyFacts GraphDensity CopyTensor Quantum QuantumSpec QuantumFacts QuantumJoin QuantumMake QuantumOps Stitch FftStitch FftSpec FftFacts Sat SatSpec SatFacts SatMain.
Import ListNotations.
Set Implicit Arguments.
Unset Strict Implicit.

Section SC.
  Context {R : cjr}.
  Notation st := (@st R).
  Implicit Types (s : st).
  Notation "x +! y" := (radd x y) (at level 50, left associativity).
  Notation "x *! y" := (rmul x y) (at level 40, left associativity).
  Add Ring Rsc : (rsr R).
  Variable iter : list nat -> list nat.
  Hypothesis iter_perm : forall l, Permutation (iter l) l.

  Lemma join_vars_connects es fs s : join_vars (R := R) es fs s = connects es fs s.
  Proof. reflexivity. Qed.
  Lemma count_sum (A : Type) (p : A -> bool) (l : list A) : lsum l (fun x => if p x then r1 else r0) = times1 R (length (filter p l)).
  Proof.
    induction l as [|x l IH]; [reflexivity|]. rewrite lsum_cons, IH. cbn [filter]. destruct (p x); cbn [length times1]; [reflexivity|ring].
  Qed.
  Lemma netval_none s a : netval s [] a = r1.
  Proof. unfold netval, value. cbn. ring. Qed.
  (** linked variables are held by connected nodes *)
  Lemma linked_conn cs s (vars : list eid) n : good cs -> largest cs n -> length vars = n ->
    (forall x, In x vars -> exists h, on s h x) ->
    (forall c x y, In c cs -> In x (lits c) -> In y (lits c) -> exists h h', on s h (nth (pos x) vars 0) /\ on s h' (nth (pos y) vars 0) /\ connected s h h') ->
    forall u v, 1 <= u <= n -> linked cs u v -> exists h h', on s h (nth (u - 1) vars 0) /\ on s h' (nth (v - 1) vars 0) /\ connected s h h'.
  Proof.
    intros G L Hl Hh Hc u v Hu H. induction H as [|c v w H IH Hcs Hv Hw].
    - destruct (Hh (nth (u - 1) vars 0)) as (h & Q); [apply nth_In; lia|]. exists h, h. split; [exact Q|]. split; [exact Q|apply conn_refl].
    - destruct IH as (h & h' & A1 & A2 & A3).
      assert (exists x y, In x (lits c) /\ In y (lits c) /\ v - 1 = pos x /\ w - 1 = pos y) as (x & y & X & Y & Ex & Ey).
      { assert (forall z, occurs z c -> exists x, In x (lits c) /\ z - 1 = pos x) as Q.
        { intros z Hz. destruct c as [[a b] d]. destruct Hz as [<-|[<-|<-]]; eexists; (split; [|reflexivity]); cbn; auto. }
        destruct (Q v Hv) as (x & X1 & X2). destruct (Q w Hw) as (y & Y1 & Y2). eauto 8. }
      destruct (Hc c x y Hcs X Y) as (g & g' & B1 & B2 & B3). exists h, g'. rewrite Ex in A2. split; [exact A1|]. rewrite Ey. split; [exact B2|].
      refine (connected_trans (connected_trans A3 _) B3). destruct A2 as (k & A2), B1 as (k' & B1). apply (conn_step (conn_refl s h') (e := nth (pos x) vars 0)); [exists k|exists k']; assumption.
  Qed.

  Lemma joined_keep s s' es fs p : joined s s' es fs -> (forall x, slot s p = Some x -> ~ In x (es ++ fs)) -> slot s' p = slot s p.
  Proof.
    intros J H. destruct (slot s p) as [y|] eqn:E; [apply (jn_slot J E), H; reflexivity|].
    pose proof (jn_same J (fst p)) as Q. unfold slot in *.
    destruct (s_nodes s (fst p)) as [a1|], (s_nodes s' (fst p)) as [b1|]; try tauto; try discriminate. destruct Q as (_ & _ & Q). apply nth_error_None. apply nth_error_None in E. lia.
  Qed.
  Lemma reach_first s0 ns0 s ns vars F cs n : sinv s0 ns0 s ns vars [] F -> good cs -> largest cs n -> length vars = n -> 1 <= n ->
    (forall c x y, In c cs -> In x (lits c) -> In y (lits c) -> exists h h', on s h (nth (pos x) vars 0) /\ on s h' (nth (pos y) vars 0) /\ connected s h h') ->
    (forall v, 1 <= v <= n -> linked cs 1 v) -> forall m, In m ns -> exists g, on s g (nth 0 vars 0) /\ connected s g m.
  Proof.
    intros I G L Hl Hn Q HL m Hm. destruct (si_reach I Hm) as (x & h & X & H1 & H2). rewrite app_nil_r in X. destruct (In_nth _ _ 0 X) as (k & Hk & Ek).
    destruct (@linked_conn cs s vars n G L Hl) with (u := 1) (v := S k) as (g & g' & G1 & G2 & G3); [|exact Q|lia|apply HL; lia|].
    { intros y Hy. destruct (si_loose I (x := y)) as [Ly _]; [rewrite app_nil_r; exact Hy|]. destruct (loose_on Ly) as (z & _ & Oz). exists z. exact Oz. }
    exists g. split; [exact G1|]. replace (S k - 1) with k in G2 by lia. rewrite Ek in G2.
    refine (connected_trans (conn_step G3 G2 H1) (connected_sym H2)).
  Qed.

  Lemma sat_count_ok s0 cs n : wf s0 -> good cs -> largest cs n ->
    exists s ns l, sat_count_tn iter cs s0 = (s, Some l) /\ wf s /\ live s ns /\ (forall m, In m ns -> ~ is_node s0 m) /\
      (forall p, is_node s0 (fst p) -> slot s p = slot s0 p) /\
      NoDup l /\ (forall m, In m l -> In m ns) /\ (forall a, netval s ns a = times1 R (solutions n cs)) /\
      ((forall v, 1 <= v <= n -> linked cs 1 v) -> Permutation l ns).
  Proof.
    intros W0 G L.
    assert (1 <= n) as Hn.
    { destruct L as [(c & Hc & O) _]. assert (exists x, In x (lits c) /\ Z.abs_nat x = n) as (x & X & <-) by (destruct c as [[a b] d]; destruct O as [<-|[<-|<-]]; eexists; (split; [|reflexivity]); cbn; auto).
      assert (x <> 0%Z) by (intros ->; apply (G c Hc X)). lia. }
    destruct (@sat_ok R s0 [] cs n W0) as (s1 & ns1 & v1 & E1 & L1 & I1 & Q1); [split; [constructor|intros ? []]|exact G|exact L|].
    pose proof (si_live I1) as LV1. cbn [app] in LV1.
    destruct (@sat_ok R s1 ns1 cs n (si_wf I1) LV1 G L) as (s2 & ns2 & v2 & E2 & L2 & I2 & Q2).
    pose proof (si_loose I1) as O1. pose proof (si_loose I2) as O2. pose proof (si_nodup I1) as D1. pose proof (si_nodup I2) as D2.
    pose proof (si_new I2) as [N1 N2]. pose proof (si_new I1) as [N1' N2'].
    assert (forall m, In m v1 \/ In m v2 -> True) as _ by auto.
    rewrite app_nil_r in O1, O2, D1, D2, N2, N2'.
    assert (forall x, In x v1 -> loose s2 (ns1 ++ ns2) x /\ edim s2 x = 2) as O1'.
    { intros x Hx. destruct (O1 x Hx) as [A B]. destruct (si_rest I2 A) as [C D]. split; [exact C|congruence]. }
    assert (forall x, In x v2 -> loose s2 (ns1 ++ ns2) x /\ edim s2 x = 2) as O2'.
    { intros x Hx. destruct (O2 x Hx) as [(p & P1 & P2) B]. split; [|exact B]. exists p. split; [apply in_or_app; right; exact P1|exact P2]. }
    assert (NoDup (v1 ++ v2)) as ND.
    { apply NoDup_app_iff. split; [exact D1|]. split; [exact D2|]. intros x H1 H2. apply N2 in H2. destruct (O1 x H1) as [(p & _ & P & _) _]. apply (slot_lt (si_wf I1)) in P. lia. }
    assert (forall x, In x (v1 ++ v2) -> loose s2 (ns1 ++ ns2) x /\ edim s2 x = 2) as O by (intros x Hx; apply in_app_or in Hx; destruct Hx; auto).
    destruct (@connects_ok R v1 v2 s2 (si_wf I2) ND) as (s3 & E3 & J).
    { intros x Hx. destruct (O x Hx) as [(p & _ & P) _]. exists p. exact P. }
    { assert (forall l l', length l = length l' -> (forall x, In x l -> edim s2 x = 2) -> (forall x, In x l' -> edim s2 x = 2) -> Forall2 (fun e f => edim s2 e = edim s2 f) l l') as K.
      { induction l as [|e l IH]; intros [|f l'] Hl H1 H2; try discriminate; constructor; [rewrite H1, H2; cbn; auto|]. apply IH; [cbn in Hl; lia|intros; apply H1; right; assumption|intros; apply H2; right; assumption]. }
      apply K; [congruence|intros; apply O1'; assumption|intros; apply O2'; assumption]. }
    assert (forall x, In x (v1 ++ v2) -> dangles s2 x) as Dg by (intros x Hx; apply (loose_dangles (proj1 (O x Hx)))).
    destruct v1 as [|e v1]; [cbn in L1; lia|].
    destruct (O1' e (or_introl eq_refl)) as [(p & P1 & P2 & P3) _].
    assert (is_node s3 (fst p)) as Np.
    { apply (joined_is_node J). intros K. unfold slot in P2. rewrite K in P2. discriminate. }
    destruct (@reachable_spec R iter iter_perm s3 [fst p] (jn_wf J)) as (l & El & Nl & Hl); [discriminate|intros m [<-|[]]; exact Np|].
    assert (live s2 (ns1 ++ ns2)) as LV2 by apply (si_live I2).
    (* the new nodes are closed *)
    assert (forall m m' e, In m (ns1 ++ ns2) -> on s3 m e -> on s3 m' e -> In m' (ns1 ++ ns2)) as Cl.
    { apply (@joined_closed R s2 s3 (e :: v1) v2 (fun m => In m (ns1 ++ ns2)) (si_wf I2) J).
      - intros x Hx. split; [apply Dg, Hx|]. destruct (loose_on (proj1 (O x Hx))) as (m & Q). exists m. exact Q.
      - intros m m' x Hm H1 H2. apply in_or_app. apply in_app_or in Hm. destruct Hm as [Hm|Hm]; [|right; apply (si_closed I2 Hm H1 H2)].
        left. assert (is_node s1 m) as Nm by (apply (proj2 LV1), Hm).
        assert (is_node s1 m') as Nm'.
        { unfold is_node. intros K. apply (si_sep I2 (m := m') (m' := m) (e := x)); auto. }
        destruct H1 as (k & H1), H2 as (k' & H2). rewrite (si_slot I2) in H1, H2 by assumption. apply (si_closed I1 (m := m) (e := x) Hm); [exists k|exists k']; assumption. }
    assert (forall m, connected s3 (fst p) m -> In m (ns1 ++ ns2)) as Sub.
    { assert (forall q m, connected s3 q m -> In q (ns1 ++ ns2) -> In m (ns1 ++ ns2)) as Q; [|intros m K; apply (Q _ _ K P1)].
      intros q m K Hq. induction K as [q|q m r x K IH H1 H2]; [exact Hq|]. apply (Cl m r x (IH Hq) H1 H2). }
    exists s3, (ns1 ++ ns2), l. split; [|split; [|split; [|split; [|split; [|split; [|split; [|split]]]]]]].
    - unfold sat_count_tn. unfold bind at 1. rewrite E1. unfold bind at 1. rewrite E2. unfold bind at 1. rewrite join_vars_connects, E3.
      unfold bind, get_edge. rewrite (jn_old J), P3; [cbn [e_n1]; exact El|]. apply (slot_lt (si_wf I2) P2).
    - apply (jn_wf J).
    - apply (joined_live J LV2).
    - intros m Hm. apply in_app_or in Hm. destruct Hm as [Hm|Hm]; [apply (si_fresh I1 Hm)|]. intros K. apply (si_fresh I2 Hm), (si_nodes I1), K.
    - intros q Hq. rewrite (joined_keep (p := q) J).
      + rewrite (si_slot I2) by (apply (si_nodes I1), Hq). apply (si_slot I1 Hq).
      + intros x Hx K. rewrite (si_slot I2), (si_slot I1) in Hx by (try apply (si_nodes I1); exact Hq). apply (slot_lt W0) in Hx.
        apply in_app_or in K. destruct K as [K|K]; [apply N2' in K|apply N2 in K]; lia.
    - exact Nl.
    - intros m Hm. apply Hl in Hm. destruct Hm as (q & [<-|[]] & K). apply Sub, K.
    - intros a. rewrite (jn_val J _ (proj1 LV2)) by (intros x Hx; apply O, Hx).
      assert (map (edim s2) (e :: v1) = repeat 2 n) as ->.
      { rewrite <- L1. clear - O1'. induction (e :: v1) as [|y l IH]; [reflexivity|]. cbn [map repeat length]. f_equal; [apply O1'; left; reflexivity|]. apply IH. intros x Hx. apply O1'. right. exact Hx. }
      unfold solutions. rewrite <- count_sum. apply lsum_ext. intros vs Hvs. apply In_idxs in Hvs. pose proof (valid_length Hvs) as Lv. rewrite repeat_length in Lv.
      destruct (@binds_pair a (e :: v1) v2 vs ND) as (B1 & B2 & B3); [congruence|congruence|]. set (b := binds _ _ _ _) in *.
      assert (forall x, In x ((e :: v1) ++ v2) -> b x < 2) as Bb.
      { assert (forall v, In v vs -> v < 2) as Hv.
        { clear - Hvs. remember (repeat 2 n) as q eqn:E. assert (forall z, In z q -> z = 2) as Q by (intros z Hz; rewrite E in Hz; apply repeat_spec in Hz; exact Hz). clear E.
          induction Hvs as [|x y l l' H H' IH]; intros v [].
          - subst. rewrite <- (Q y (or_introl eq_refl)). exact H.
          - apply IH; auto. intros z Hz. apply Q. right. exact Hz. }
        intros x Hx. apply Hv. apply in_app_or in Hx. destruct Hx as [Hx|Hx]; [rewrite <- B1|rewrite <- B2]; apply in_map; exact Hx. }
      rewrite (si_val I2) by (intros x Hx; rewrite app_nil_r in Hx; apply Bb, in_or_app; right; exact Hx). rewrite B2.
      pose proof (si_val I1 (a := b)) as V. cbn [app] in V. rewrite V by (intros x Hx; rewrite app_nil_r in Hx; apply Bb, in_or_app; left; exact Hx). rewrite B1, netval_none.
      destruct (satisfies cs vs); ring.
    - intros HL. apply NoDup_Permutation; [exact Nl|apply LV2|]. intros m. rewrite Hl. split; [intros (q & [<-|[]] & K); apply Sub, K|].
      intros Hm. exists (fst p). split; [left; reflexivity|].
      assert (on s2 (fst p) e) as Op by (exists (snd p); rewrite <- surjective_pairing; exact P2).
      destruct v2 as [|f v2]; [cbn in L2; lia|].
      apply in_app_or in Hm. destruct Hm as [Hm|Hm].
      + destruct (reach_first I1 G L L1 Hn Q1 HL Hm) as (g & G1 & G2). cbn [nth] in G1.
        assert (on s2 g e) as G1' by (destruct G1 as (k & K); exists k; rewrite (si_slot I2); [exact K|exact (on_node (ex_intro _ _ K))]).
        rewrite (dangles_on (si_wf I2) (Dg e (or_introl eq_refl)) Op G1'). apply (joined_conn (si_wf I2) J Dg), (si_conn I2), G2.
      + destruct (reach_first I2 G L L2 Hn Q2 HL Hm) as (g & G1 & G2). cbn [nth] in G1.
        refine (connected_trans (joined_pair (si_wf I2) J Dg (e := e) (f := f) _ Op G1) (joined_conn (si_wf I2) J Dg G2)). left. reflexivity.
  Qed.

  (** ** the statements *)
  Lemma good_of cs : (forall x y z, In (x, y, z) cs -> x <> 0%Z /\ y <> 0%Z /\ z <> 0%Z) -> good cs.
  Proof. intros H [[x y] z] Hc. destruct (H x y z Hc) as (A & B & C). cbn. intuition. Qed.
  Lemma largest_pos cs n : good cs -> largest cs n -> 1 <= n.
  Proof.
    intros G [(c & Hc & O) _]. assert (exists x, In x (lits c) /\ Z.abs_nat x = n) as (x & X & <-) by (destruct c as [[a b] d]; destruct O as [<-|[<-|<-]]; eexists; (split; [|reflexivity]); cbn; auto).
    assert (x <> 0%Z) by (intros ->; apply (G c Hc X)). lia.
  Qed.
  Lemma sat_full s cs n : wf s -> (forall x y z, In (x, y, z) cs -> x <> 0%Z /\ y <> 0%Z /\ z <> 0%Z) -> largest cs n ->
    exists s' ns vars, sat_tn cs s = (s', Some vars) /\ wf s' /\ length vars = n /\ NoDup vars /\ NoDup ns /\
      (forall m, In m ns -> is_node s' m /\ ~ is_node s m) /\ (forall m, is_node s m -> is_node s' m) /\ (forall p, is_node s (fst p) -> slot s' p = slot s p) /\
      (forall x, In x vars -> edim s' x = 2) /\ (forall x, In x vars <-> loose s' ns x) /\
      (forall a, (forall x, In x vars -> a x < 2) -> netval s' ns a = if satisfies cs (map a vars) then r1 else r0) /\
      ((forall v, 1 <= v <= n -> linked cs 1 v) -> exists d l, s_edges s' (nth 0 vars 0) = Some d /\ reachable iter [e_n1 d] s' = (s', Some l) /\ Permutation l ns).
  Proof.
    intros W G' L. pose proof (good_of G') as G. pose proof (largest_pos G L) as Hn.
    destruct (@sat_ok R s [] cs n W) as (s1 & ns & v & E & Lv & I & Q); [split; [constructor|intros ? []]|exact G|exact L|].
    pose proof (si_live I) as LV. pose proof (si_nodup I) as ND. pose proof (si_loose I) as O. pose proof (si_open I) as O'. cbn [app] in LV. rewrite app_nil_r in ND, O, O'.
    exists s1, ns, v. split; [exact E|]. split; [apply (si_wf I)|]. split; [exact Lv|]. split; [exact ND|]. split; [apply LV|].
    split; [intros m Hm; split; [apply LV, Hm|apply (si_fresh I Hm)]|]. split; [apply (si_nodes I)|]. split; [apply (si_slot I)|].
    split; [intros x Hx; apply O, Hx|]. split; [intros x; split; [intros Hx; apply O, Hx|apply O']|]. split.
    - intros a Ha. pose proof (si_val I (a := a)) as V. cbn [app] in V. rewrite V by (rewrite app_nil_r; exact Ha). rewrite netval_none. ring.
    - intros HL. destruct (O (nth 0 v 0)) as [(p & P1 & P2 & P3) _]; [apply nth_In; lia|].
      destruct (@reachable_spec R iter iter_perm s1 [fst p] (si_wf I)) as (l & El & Nl & Hl); [discriminate|intros m [<-|[]]; apply LV, P1|].
      eexists. exists l. split; [exact P3|]. split; [exact El|]. apply NoDup_Permutation; [exact Nl|apply LV|]. intros m. rewrite Hl. split.
      + intros (q & [<-|[]] & K). revert P1. generalize (fst p) K. clear - I. intros q K Hq. induction K as [q|q m r x K IH H1 H2]; [exact Hq|]. apply (si_closed I (IH Hq) H1 H2).
      + intros Hm. exists (fst p). split; [left; reflexivity|]. destruct (reach_first I G L Lv Hn Q HL Hm) as (g & G1 & G2).
        assert (dangles s1 (nth 0 v 0)) as Dg by (exists p; auto).
        assert (on s1 (fst p) (nth 0 v 0)) as Op by (exists (snd p); rewrite <- surjective_pairing; exact P2).
        rewrite (dangles_on (si_wf I) Dg Op G1). exact G2.
  Qed.
  Lemma count_full s cs n : wf s -> (forall x y z, In (x, y, z) cs -> x <> 0%Z /\ y <> 0%Z /\ z <> 0%Z) -> largest cs n -> (forall v, 1 <= v <= n -> linked cs 1 v) ->
    exists s' l, sat_count_tn iter cs s = (s', Some l) /\ wf s' /\ NoDup l /\ (forall m, In m l -> is_node s' m /\ ~ is_node s m) /\
      (forall p, is_node s (fst p) -> slot s' p = slot s p) /\ forall a, netval s' l a = times1 R (solutions n cs).
  Proof.
    intros W G L HL. destruct (sat_count_ok W (good_of G) L) as (s' & ns & l & E & W' & LV & Fr & Sl & Nl & Sub & V & P).
    exists s', l. split; [exact E|]. split; [exact W'|]. split; [exact Nl|]. split; [intros m Hm; split; [apply LV, Sub, Hm|apply Fr, Sub, Hm]|]. split; [exact Sl|].
    intros a. rewrite (netval_perm s' a (P HL)). apply V.
  Qed.
  Lemma sat_rejects s cs : (exists x y z, In (x, y, z) cs /\ (x = 0 \/ y = 0 \/ z = 0)%Z) \/ cs = [] -> snd (sat_tn cs s) = None /\ snd (sat_count_tn iter cs s) = None.
  Proof.
    intros H. assert (snd (sat_tn cs s) = None) as E.
    { destruct H as [(x & y & z & Hc & Hz)| ->]; [|reflexivity].
      unfold sat_tn, bind, guard. replace (existsb _ cs) with true; [reflexivity|]. symmetry. apply existsb_exists. exists (x, y, z). split; [exact Hc|].
      apply existsb_exists. exists 0%Z. split; [cbn; intuition|reflexivity]. }
    split; [exact E|]. unfold sat_count_tn, bind at 1. destruct (sat_tn cs s) as [s1 [v|]]; [discriminate|reflexivity].
  Qed.
End SC.
