(** * GraphCompound: contract_trace_edges, outer_product_final_nodes, flatten_edges_between *)
From Verif Require Import Prelude Algebra Tensor TensorFacts Einsum EinsumFacts NetworkFacts Graph GraphBase GraphContract GraphOps GraphValue GraphOuter GraphConnect GraphJoin GraphBetween GraphRetail GraphFuse GraphFlatten GraphTrace GraphSplit GraphProg GraphSched GraphLaws GraphQuery GraphQueryFacts.
Set Implicit Arguments.
Unset Strict Implicit.

Section GC.
  Context {R : csr}.
  Add Ring Rring : (rsr R).
  Notation st := (@st R).
  Notation M := (@M R).
  Notation node := (@node R).
  Implicit Types (s : st) (e : eid).
  Variable iter : list nat -> list nat.
  Hypothesis iter_perm : forall l, Permutation (iter l) l.

  Lemma count_two (l : list nat) x : 2 <= count_occ Nat.eq_dec l x <-> exists i j, i <> j /\ nth_error l i = Some x /\ nth_error l j = Some x.
  Proof.
    induction l as [|y l IH]; [cbn; split; [lia|]; intros (i & j & _ & K & _); destruct i; discriminate|].
    cbn [count_occ]. destruct (Nat.eq_dec y x) as [->|Hne].
    - split.
      + intros H. assert (In x l) as K by (apply (count_occ_In Nat.eq_dec); lia). destruct (In_nth_error _ _ K) as [j Hj]. exists 0, (S j). auto.
      + intros (i & j & Hij & Hi & Hj). assert (In x l) as K.
        { destruct i as [|i]; [|apply (nth_error_In _ i); exact Hi]. destruct j as [|j]; [lia|]. apply (nth_error_In _ j). exact Hj. }
        apply (count_occ_In Nat.eq_dec) in K. lia.
    - rewrite IH. split; intros (i & j & Hij & Hi & Hj).
      + exists (S i), (S j). auto.
      + destruct i as [|i]; [cbn in Hi; congruence|]. destruct j as [|j]; [cbn in Hj; congruence|]. exists i, j. auto.
  Qed.
  Lemma between_self_count s n nd e : s_nodes s n = Some nd -> between s n n e <-> 2 <= count_occ Nat.eq_dec (n_edges nd) e.
  Proof.
    intros Hn. rewrite count_two. split.
    - intros ((? & i) & (? & j) & Hne & H1 & H2 & Hi & Hj). cbn in H1, H2. subst. exists i, j.
      unfold slot in Hi, Hj. cbn in Hi, Hj. rewrite Hn in Hi, Hj. split; [congruence|auto].
    - intros (i & j & Hij & Hi & Hj). exists (n, i), (n, j). split; [congruence|]. split; [reflexivity|]. split; [reflexivity|].
      split; apply (slot_intro Hn); assumption.
  Qed.
  Lemma count_kept cut l x : ~ In x cut -> count_occ Nat.eq_dec (kept_of cut l) x = count_occ Nat.eq_dec l x.
  Proof.
    intros H. induction l as [|y l IH]; [reflexivity|]. unfold kept_of in *. cbn [filter count_occ]. destruct (mem y cut) eqn:Q; cbn [negb].
    - apply mem_In in Q. destruct (Nat.eq_dec y x); [congruence|exact IH].
    - cbn [count_occ]. rewrite IH. reflexivity.
  Qed.

  (** ** contract_trace_edges *)
  Lemma first_trace_spec n s : wf s -> forall es s' N, (forall e, In e es -> on s n e) -> first_trace iter n es s = (s', Some N) ->
    (N = n /\ s' = s /\ forall e, In e es -> ~ between s n n e) \/
    (exists e, In e es /\ between s n n e /\ contract_parallel iter e s = (s', Some N)).
  Proof.
    intros W. induction es as [|e es IH]; intros s' N Hes H; cbn [first_trace] in H.
    - injection H as <- <-. left. split; [reflexivity|]. split; [reflexivity|]. intros e [].
    - apply bind_inv in H. destruct H as (ed & s1 & H1 & H). apply get_edge_inv in H1. destruct H1 as (-> & E & D).
      pose proof (Hes e (or_introl eq_refl)) as He.
      assert (is_trace_edge ed = true <-> between s n n e) as T.
      { unfold is_trace_edge. destruct (kinds W He E) as [(E2 & _ & _ & _ & K)|(m & a2 & E2 & _ & Hor & _ & _ & K)]; rewrite E2.
        - split; [discriminate|]. intros Q. exfalso. apply (K _ _ Q).
        - rewrite K, Nat.eqb_eq. intuition congruence. }
      destruct (is_trace_edge ed) eqn:Q.
      + right. exists e. split; [left; reflexivity|]. split; [apply T; reflexivity|exact H].
      + destruct (IH s' N (fun f Hf => Hes f (or_intror Hf)) H) as [(-> & -> & K)|(f & Hf & Hb & K)].
        * left. split; [reflexivity|]. split; [reflexivity|]. intros f [<-|Hf]; [|apply K; exact Hf]. intros B. apply T in B. discriminate.
        * right. exists f. split; [right; exact Hf|]. auto.
  Qed.

  (** every trace edge of the node is contracted, or the node has none and is returned as it is *)
  Theorem contract_trace_edges_step n s s' N : wf s -> contract_trace_edges iter n s = (s', Some N) ->
    exists nd, s_nodes s n = Some nd /\
    ((N = n /\ s' = s /\ forall e, ~ between s n n e) \/
     (contracted s s' [n] N /\ (exists e, between s n n e) /\
      exists nd', s_nodes s' N = Some nd' /\ forall e, ~ between s' N N e /\ (on s' N e <-> on s n e /\ ~ between s n n e))).
  Proof.
    intros W H. unfold contract_trace_edges in H. apply bind_inv in H. destruct H as (es & s1 & H1 & H).
    unfold node_edges in H1. apply bind_inv in H1. destruct H1 as (nd & s2 & H1 & H2). apply get_node_inv in H1. destruct H1 as (-> & Hn).
    injection H2 as <- <-. exists nd. split; [exact Hn|].
    destruct (first_trace_spec W (fun e He => proj2 (on_In e Hn) He) H) as [(-> & -> & K)|(e & He & Hb & K)].
    - left. split; [reflexivity|]. split; [reflexivity|]. intros e B. apply (K e); [|exact B]. apply (on_In e Hn).
      destruct B as (p & q & _ & <- & _ & Hp & _). exists (snd p). rewrite <- surjective_pairing. exact Hp.
    - right. pose proof (proj2 (on_In e Hn) He) as Ho.
      assert (exists p, slot s p = Some e) as L by (destruct Ho as (k & Hk); eauto).
      destruct (parallel_step iter_perm W L K) as (ed & q & E & E2 & C & nd' & Hn' & Ek).
      destruct (on_edge W Ho) as (ed' & E' & D). rewrite E in E'. injection E' as <-.
      destruct (kinds W Ho E) as [(E2' & _)|(m & a2 & E2' & _ & _ & _ & _ & K')]; [congruence|].
      rewrite E2 in E2'. injection E2' as ->. apply K' in Hb. assert (e_n1 ed = n /\ m = n) as [En Em] by intuition.
      rewrite En in *. cbn [fst] in *. rewrite Em in *.
      assert (nodup Nat.eq_dec [n; n] = [n]) as EN by (cbn; destruct (Nat.eq_dec n n); congruence).
      rewrite EN in *. cbn [flat_map] in Ek. rewrite Hn, app_nil_r in Ek.
      split; [exact C|]. split; [exists e; apply K'; auto|]. exists nd'. split; [exact Hn'|]. intros f.
      assert (on s' N f <-> on s n f /\ ~ between s n n f) as Hon.
      { rewrite (on_In f Hn'), Ek. unfold kept_of. rewrite filter_In, <- (on_In f Hn), negb_true_iff. split; intros [Hf Q].
        - split; [exact Hf|]. intros B. apply mem_nIn in Q. apply Q. apply (shared_spec n f Hn). split; [apply (on_In f Hn); exact Hf|].
          destruct (on_edge W Hf) as (fd & Ef & _). exists fd. split; [exact Ef|]. apply (joins_between n n W Hf Ef). exact B.
        - split; [exact Hf|]. apply mem_nIn. intros B. apply (shared_spec n f Hn) in B. destruct B as (_ & fd & Ef & J). apply Q.
          apply (joins_between n n W Hf Ef). exact J. }
      split; [|exact Hon]. intros B.
      assert (on s' N f) as Hf by (destruct B as (p & q & _ & <- & _ & Hp & _); exists (snd p); rewrite <- surjective_pairing; exact Hp).
      pose proof Hf as Hf2. apply Hon in Hf2. destruct Hf2 as [Hf2 HnB].
      apply HnB. apply (between_self_count f Hn). apply (between_self_count f Hn') in B. rewrite Ek, count_kept in B; [exact B|].
      intros Q. apply (shared_spec n f Hn) in Q. destruct Q as (_ & fd & Ef & J). apply HnB. apply (joins_between n n W Hf2 Ef). exact J.
  Qed.

  (** ** outer_product_final_nodes *)
  Lemma net_labels_edges s S : net_labels (net_of s S) = flat_map (edges_at0 s) S.
  Proof.
    induction S as [|n S IH]; [reflexivity|]. cbn [net_of map flat_map]. rewrite net_labels_cons. unfold net_of in IH. rewrite IH. f_equal.
    unfold fac, edges_at0. destruct (s_nodes s n); reflexivity.
  Qed.
  Lemma outer_fold_step : forall ns acc s s' f, wf s -> NoDup (acc :: ns) -> (forall n, In n (acc :: ns) -> is_node s n) ->
    outer_fold acc ns s = (s', Some f) ->
    wf s' /\ is_node s' f /\ edges_at0 s' f = flat_map (edges_at0 s) (acc :: ns) /\ (forall x, In x (edges_at0 s' f) -> edim s' x = edim s x) /\
    (forall m, is_node s m -> ~ In m (acc :: ns) -> m <> f /\ s_nodes s' m = s_nodes s m) /\
    (forall S a, NoDup ((acc :: ns) ++ S) -> (forall n, In n S -> is_node s n) -> open_ok s ((acc :: ns) ++ S) a ->
       netval s ((acc :: ns) ++ S) a = netval s' (f :: S) a /\ open_ok s' (f :: S) a).
  Proof.
    induction ns as [|n ns IH]; intros acc s s' f W Hnd Hn H; cbn [outer_fold] in H.
    - injection H as <- <-. split; [exact W|]. split; [apply Hn; left; reflexivity|]. cbn [flat_map]. rewrite app_nil_r. split; [reflexivity|]. split; [reflexivity|].
      split; [|intros S a _ _ Ho; auto]. intros m _ Hm. split; [|reflexivity]. intros ->. apply Hm. left. reflexivity.
    - apply bind_inv in H. destruct H as (P & s1 & H1 & H).
      assert (acc <> n) as Hne by (intros ->; apply NoDup_cons_iff in Hnd; destruct Hnd as [K _]; apply K; left; reflexivity).
      destruct (outer_step W Hne H1) as (C & d1 & d2 & nms & E1 & E2 & EP).
      assert (forall m, is_node s m -> m <> P) as HP by (intros m Hm ->; apply Hm; apply (ct_new C)).
      assert (NoDup (P :: ns)) as Hnd'.
      { apply NoDup_cons_iff in Hnd. destruct Hnd as [_ Hnd]. apply NoDup_cons_iff in Hnd. destruct Hnd as [_ Hnd]. constructor; [|exact Hnd].
        intros K. apply (HP P); [apply Hn; right; right; exact K|reflexivity]. }
      assert (forall m, In m ns -> ~ In m [acc; n]) as Hsep.
      { intros m Hm [<-|[<-|[]]]; apply NoDup_cons_iff in Hnd; destruct Hnd as [K1 K2]; [apply K1; right; exact Hm|].
        apply NoDup_cons_iff in K2. destruct K2 as [K2 _]. contradiction. }
      assert (forall m, is_node s m -> ~ In m [acc; n] -> s_nodes s1 m = s_nodes s m) as Hold by (intros m Hm K; apply (ct_others C K (HP m Hm))).
      destruct (IH P s1 s' f (ct_wf C) Hnd') as (W' & Hf & He & Hd & Ho & Hv).
      { intros m [<-|Hm]; [unfold is_node; rewrite EP; discriminate|]. unfold is_node.
        rewrite (Hold m (Hn m (or_intror (or_intror Hm))) (Hsep m Hm)). apply Hn. right. right. exact Hm. }
      { exact H. }
      split; [exact W'|]. split; [exact Hf|]. split; [|split; [|split]].
      + rewrite He. cbn [flat_map]. unfold edges_at0 at 1. rewrite EP. cbn [n_edges].
        rewrite app_assoc. f_equal; [unfold edges_at0; rewrite E1, E2; reflexivity|].
        rewrite !flat_map_concat_map. f_equal. apply map_ext_in. intros m Hm. unfold edges_at0.
        rewrite (Hold m (Hn m (or_intror (or_intror Hm))) (Hsep m Hm)). reflexivity.
      + intros x Hx. rewrite (Hd x Hx). rewrite He, <- net_labels_edges in Hx.
        assert (NoDup ([acc; n] ++ ns)) as HA by exact Hnd. apply (contracted_open W C HA); [|exact Hx].
        apply NoDup_cons_iff in Hnd'. apply Hnd'.
      + intros m Hm K. assert (~ In m [acc; n]) as Q1 by (intros [<-|[<-|[]]]; apply K; cbn; auto).
        destruct (Ho m) as [Ho1 Ho2].
        * unfold is_node. rewrite (Hold m Hm Q1). exact Hm.
        * intros [Q|Q]; [apply (HP m Hm); auto|]. apply K. right. right. exact Q.
        * split; [exact Ho1|]. rewrite Ho2. apply Hold; assumption.
      + intros S a HS HSn Hop. assert (NoDup ([acc; n] ++ (ns ++ S))) as HS2 by exact HS.
        assert (~ In P (ns ++ S)) as HPn.
        { intros K. apply in_app_or in K. apply (HP P); [|reflexivity]. destruct K as [K|K]; [apply Hn; right; right; exact K|apply HSn; exact K]. }
        change (netval s ((acc :: n :: ns) ++ S) a) with (netval s ([acc; n] ++ ns ++ S) a). rewrite (ct_value C HS2 HPn Hop). apply (contracted_open_ok a W C HS2 HPn) in Hop. apply Hv; [|
          intros m Hm; unfold is_node; rewrite (Hold m (HSn m Hm)); [apply HSn; exact Hm|]|exact Hop].
        * cbn [app]. constructor; [exact HPn|]. apply NoDup_app_iff in HS2. apply HS2.
        * intros K. apply NoDup_app_iff in HS2. destruct HS2 as (_ & _ & HS2). apply (HS2 m K). apply in_or_app. right. exact Hm.
  Qed.

  (** no repeated label: the value is the product *)
  Lemma netval_nodup s S a : NoDup (net_labels (net_of s S)) -> netval s S a = netprod (net_of s S) a.
  Proof.
    intros ND. unfold netval, value, einsum.
    assert (repeated Nat.eq_dec (net_labels (net_of s S)) = []) as ->; [|reflexivity].
    destruct (repeated Nat.eq_dec (net_labels (net_of s S))) as [|x l] eqn:E; [reflexivity|]. exfalso.
    assert (In x (repeated Nat.eq_dec (net_labels (net_of s S)))) as K by (rewrite E; left; reflexivity).
    apply In_repeated in K. rewrite (NoDup_count_occ Nat.eq_dec) in ND. specialize (ND x). lia.
  Qed.
  Lemma all_dangling_inv ns s s' (x : unit) :
    mfor ns (fun n => bind (node_edges n) (fun es s => guard (forallb (edge_dangling s) es) s)) s = (s', Some x) ->
    s' = s /\ forall n, In n ns -> is_node s n /\ forall e, In e (edges_at0 s n) -> edge_dangling s e = true.
  Proof.
    revert s. induction ns as [|n ns IH]; intros s H; cbn [mfor] in H; [injection H as <- _; split; [reflexivity|intros n []]|].
    apply bind_inv in H. destruct H as (u & s1 & H1 & H). apply bind_inv in H1. destruct H1 as (es & s2 & H1 & H2).
    unfold node_edges in H1. apply bind_inv in H1. destruct H1 as (nd & s3 & H1 & H3). apply get_node_inv in H1. destruct H1 as (-> & Hn).
    injection H3 as <- <-. apply guard_inv in H2. destruct H2 as (Q & ->). destruct (IH s H) as (-> & K). split; [reflexivity|].
    intros m [<-|Hm]; [|apply K; exact Hm]. split; [unfold is_node; congruence|]. unfold edges_at0. rewrite Hn. rewrite forallb_forall in Q. exact Q.
  Qed.

  (** the result is the outer product of the nodes with its axes in the given order of edges *)
  Theorem outer_final_step ns order s s' f : wf s -> NoDup ns -> outer_product_final_nodes ns order s = (s', Some f) ->
    wf s' /\ Permutation order (flat_map (edges_at0 s) ns) /\ NoDup order /\
    exists nd, s_nodes s' f = Some nd /\ n_edges nd = order /\ shape (n_t nd) = map (edim s) order /\
      forall a, (forall e, In e order -> a e < edim s e) ->
        elt (n_t nd) (map a order) = netprod (net_of s ns) a.
  Proof.
    intros W HN H. unfold outer_product_final_nodes in H. apply bind_inv in H. destruct H as (u & s0 & H0 & H).
    apply all_dangling_inv in H0. destruct H0 as (-> & HD). destruct ns as [|n ns]; [discriminate|].
    apply bind_inv in H. destruct H as (f1 & s1 & H1 & H). apply bind_inv in H. destruct H as (u2 & s2 & H2 & H). injection H as <- <-.
    destruct (outer_fold_step W HN (fun m Hm => proj1 (HD m Hm)) H1) as (W1 & Hf & He & Hd & _ & Hv).
    destruct (is_node_Some Hf) as (ndf & Ef). unfold edges_at0 at 1 in He. rewrite Ef in He.
    destruct (reorder_edges_inv H2) as (ndf' & Ef' & Hp & Ho & Hpost). rewrite Ef in Ef'. injection Ef' as <-.
    set (perm := map (fun e => nindex e (n_edges ndf)) order) in *.
    destruct (reorder_wf W1 (@wf_live_at _ _ f1 W1) Ef Hp Hpost) as (W2 & _).
    assert (NoDup (n_edges ndf)) as NDe.
    { rewrite He. destruct (get_all_dangling_spec W (fun m Hm => proj1 (HD m Hm))) as (l & _ & _ & Hl & El). specialize (Hl HN).
      assert (flat_map (edges_at0 s) (n :: ns) = l) as ->; [|exact Hl]. rewrite El, !flat_map_concat_map. f_equal. apply map_ext_in.
      intros m Hm. symmetry. apply filter_all. intros e Hin. apply (proj2 (HD m Hm)). exact Hin. }
    assert (Permutation order (n_edges ndf)) as HPo by (rewrite Ho; apply gather_perm; exact Hp).
    assert (Permutation order (flat_map (edges_at0 s) (n :: ns))) as HPs by (rewrite <- He; exact HPo).
    assert (NoDup order) as NDo by (apply (Permutation_NoDup (Permutation_sym HPo)); exact NDe).
    split; [exact W2|]. split; [exact HPs|]. split; [exact NDo|].
    destruct Hpost as (Hnn & Hne & Hnodes & Hedges).
    assert (s_nodes s2 f1 = Some (Node (transpose (n_t ndf) perm) order (gather 0 (n_names ndf) perm))) as E2.
    { rewrite Hnodes, Nat.eqb_refl, <- Ho. reflexivity. }
    assert (forall x, In x (n_edges ndf) -> edim s1 x = edim s x) as Hd'.
    { intros x Hx. apply Hd. unfold edges_at0. rewrite Ef. exact Hx. }
    eexists. split; [exact E2|]. split; [reflexivity|]. split.
    - cbn [n_t transpose shape]. pose proof (wf_fits W1 Ef) as Hfit. unfold fits in Hfit. cbn [fst snd] in Hfit. rewrite Hfit.
      rewrite (map_ext_in _ _ _ Hd'). rewrite Ho.
      rewrite (@map_gather _ _ (edim s) 0 (n_edges ndf) perm 0). 2:{ intros i Hi. apply (is_perm_In _ Hp). exact Hi. } reflexivity.
    - intros a Ha. cbn [n_t]. pose proof (netval_single a E2 NDo) as V. cbn [n_t n_edges] in V. rewrite <- V.
      rewrite <- (@reorder_value R s1 s2 f1 ndf perm _ [] a W1 W2 Ef Hp (fun K => match K with end) (conj Hnn (conj Hne (conj Hnodes Hedges)))).
      assert (open_ok s (n :: ns) a) as HO.
      { intros x Hx. apply Ha. apply (Permutation_in _ (Permutation_sym HPs)). rewrite <- net_labels_edges. apply (count_occ_In Nat.eq_dec). lia. }
      destruct (Hv [] a) as [Hv1 _]; [rewrite app_nil_r; exact HN|intros m []|rewrite app_nil_r; exact HO|].
      rewrite app_nil_r in Hv1. rewrite <- Hv1. apply netval_nodup. rewrite net_labels_edges, <- He. exact NDe.
  Qed.

  (** ** flatten_edges_between *)
  Theorem flatten_between_step n1 n2 s s' r : wf s -> flatten_edges_between iter n1 n2 s = (s', Some r) ->
    (r = None /\ s' = s /\ forall e, ~ between s n1 n2 e) \/
    (exists f es, r = Some f /\ es <> [] /\ NoDup es /\ (forall e, In e es <-> between s n1 n2 e) /\ flatten_edges iter es s = (s', Some f)).
  Proof.
    intros W H. unfold flatten_edges_between in H. apply bind_inv in H. destruct H as (es & s1 & H1 & H).
    assert (is_node s n1) as Hn.
    { unfold get_shared_edges in H1. apply bind_inv in H1. destruct H1 as (nd & s2 & H1 & _). apply get_node_inv in H1. unfold is_node. destruct H1 as (_ & ->). discriminate. }
    destruct (get_shared_edges_spec iter_perm n2 W Hn) as (l & El & Hl & Hin). rewrite El in H1. injection H1 as <- <-.
    destruct l as [|e l]; [left; injection H as <- <-; split; [reflexivity|]; split; [reflexivity|]; intros e B; apply Hin in B; destruct B|].
    right. apply bind_inv in H. destruct H as (f & s2 & H & H2). injection H2 as <- <-. exists f, (e :: l).
    split; [reflexivity|]. split; [discriminate|]. auto.
  Qed.
End GC.
