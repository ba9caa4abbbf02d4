(** * Proofs about to_graphviz *)
From Coq Require Import Lia.
From Verif Require Import Prelude Algebra Tensor Graph GraphBase Graphviz GraphvizSpec.
Set Implicit Arguments.
Unset Strict Implicit.

Section Facts.
  Context {R : csr}.
  Variables (nname : nid -> list nat) (ename : eid -> list nat) (all : bool).
  Notation st := (@st R).
  Notation lab := (fun e => label all (ename e)).

  Lemma node_loop_ok (s : st) : forall ns g, (forall n, In n ns -> s_nodes s n <> None) ->
    node_loop nname all ns g s = (s, Some (g ++ map (fun n => SNode (VNode n) (label all (nname n)) false) ns)).
  Proof.
    induction ns as [|n ns IH]; intros g H; cbn [node_loop map].
    - rewrite app_nil_r. reflexivity.
    - unfold bind at 1, get_node. destruct (s_nodes s n) as [nd|] eqn:E; [|exfalso; apply (H n); [left; reflexivity|exact E]].
      rewrite IH by (intros m Hm; apply H; right; exact Hm). rewrite <- app_assoc. reflexivity.
  Qed.

  Lemma drawn_one (s : st) n i e : wf s -> slot s (n, i) = Some e ->
    exists ed, s_edges s e = Some ed /\ e_dis ed = false /\
      drawn s (lab e) e (match e_2 ed with
                  | None => [SNode (VInvis n i) [] true; SEdge (VInvis n i) (VNode n) (lab e)]
                  | Some (m, _) => [SEdge (VNode (e_n1 ed)) (VNode m) (lab e)]
                  end).
  Proof.
    intros W Hs. destruct (wf_slot W Hs) as (ed & H1 & H2 & H3 & H4 & H5).
    exists ed. split; [exact H1|split; [exact H2|]].
    assert (HA : forall p, slot s p = Some e <-> In p (ends ed)).
    { intros p. split.
      - intros Hp. destruct (wf_slot W Hp) as (ed' & G1 & _ & G3 & _). rewrite H1 in G1. injection G1 as <-. exact G3.
      - intros Hp. apply (H5 (fun f => f) p Hp). }
    unfold ends in HA, H3, H4. destruct (e_2 ed) as [[m j]|].
    - apply (@drawn_joined _ s (lab e) e (e_n1 ed, e_a1 ed) (m, j)).
      + inversion H4 as [|x l Hn Hd]; subst. intros E. apply Hn. left. symmetry. exact E.
      + intros r. rewrite HA. cbn [In]. intuition.
    - destruct H3 as [H3|[]]. apply drawn_dangling. intros p. rewrite HA, H3. cbn [In]. intuition.
  Qed.

  (** the loop over the edges of a node *)
  Lemma edge_loop_ok (s : st) n : wf s -> forall es i seen g,
    (forall k e, nth_error es k = Some e -> slot s (n, i + k) = Some e) -> NoDup seen ->
    exists new bs, edge_loop ename all n i es seen g s = (s, Some (rev new ++ seen, g ++ concat bs)) /\
      NoDup (rev new ++ seen) /\ (forall e, In e new -> In e es) /\ (forall e, In e es -> In e new \/ In e seen) /\
      Forall2 (fun e b => drawn s (lab e) e b) new bs.
  Proof.
    intros W. induction es as [|e es IH]; intros i seen g H Hd; cbn [edge_loop].
    - exists [], []. cbn [rev app concat]. rewrite app_nil_r.
      split; [reflexivity|split; [exact Hd|split; [intros e []|split; [intros e []|constructor]]]].
    - assert (Hr : forall k e', nth_error es k = Some e' -> slot s (n, S i + k) = Some e').
      { intros k e' Hk. replace (S i + k) with (i + S k) by lia. apply H. exact Hk. }
      destruct (mem e seen) eqn:Em.
      + apply mem_In in Em. destruct (IH (S i) seen g Hr Hd) as (new & bs & E1 & E2 & E3 & E4 & E5).
        exists new, bs. split; [exact E1|split; [exact E2|split; [|split; [|exact E5]]]].
        * intros x Hx. right. apply E3. exact Hx.
        * intros x [<- | Hx]; [right; exact Em|apply E4; exact Hx].
      + apply mem_nIn in Em. pose proof (H 0 e eq_refl) as H0. rewrite Nat.add_0_r in H0.
        destruct (drawn_one W H0) as (ed & G1 & G2 & G3).
        unfold bind at 1, get_edge. rewrite G1, G2.
        destruct (IH (S i) (e :: seen) (g ++ match e_2 ed with
                  | None => [SNode (VInvis n i) [] true; SEdge (VInvis n i) (VNode n) (lab e)]
                  | Some (m, _) => [SEdge (VNode (e_n1 ed)) (VNode m) (lab e)]
                  end) Hr (NoDup_cons _ Em Hd)) as (new & bs & E1 & E2 & E3 & E4 & E5).
        exists (e :: new), (match e_2 ed with
                  | None => [SNode (VInvis n i) [] true; SEdge (VInvis n i) (VNode n) (lab e)]
                  | Some (m, _) => [SEdge (VNode (e_n1 ed)) (VNode m) (lab e)]
                  end :: bs).
        cbn [rev concat]. rewrite <- !app_assoc. cbn [app].
        split; [rewrite E1, <- app_assoc; reflexivity|split; [exact E2|split; [|split]]].
        * intros x [<- | Hx]; [left; reflexivity|right; apply E3; exact Hx].
        * intros x [<- | Hx]; [left; left; reflexivity|]. destruct (E4 x Hx) as [Hn|[<- | Hn]];
            [left; right; exact Hn|left; left; reflexivity|right; exact Hn].
        * constructor; assumption.
  Qed.

  Lemma slot_node (s : st) n nd k : s_nodes s n = Some nd -> slot s (n, k) = nth_error (n_edges nd) k.
  Proof. intros E. unfold slot. cbn [fst snd]. rewrite E. reflexivity. Qed.

  Lemma all_edges_ok (s : st) : wf s -> forall ns seen g, (forall n, In n ns -> s_nodes s n <> None) -> NoDup seen ->
    exists new bs, all_edges ename all ns seen g s = (s, Some (g ++ concat bs)) /\
      NoDup (rev new ++ seen) /\ (forall e, In e new -> exists n i, In n ns /\ slot s (n, i) = Some e) /\
      (forall n i e, In n ns -> slot s (n, i) = Some e -> In e new \/ In e seen) /\
      Forall2 (fun e b => drawn s (lab e) e b) new bs.
  Proof.
    intros W. induction ns as [|n ns IH]; intros seen g H Hd; cbn [all_edges].
    - exists [], []. cbn [rev app concat]. rewrite app_nil_r.
      split; [reflexivity|split; [exact Hd|split; [intros e []|split; [intros n i e []|constructor]]]].
    - unfold bind at 1, get_node. destruct (s_nodes s n) as [nd|] eqn:E; [|exfalso; apply (H n); [left; reflexivity|exact E]].
      destruct (@edge_loop_ok s n W (n_edges nd) 0 seen g) as (n1 & b1 & E1 & E2 & E3 & E4 & E5); [|exact Hd|].
      { intros k e Hk. rewrite (slot_node _ E). exact Hk. }
      unfold bind at 1. rewrite E1. cbn [fst snd].
      destruct (IH (rev n1 ++ seen) (g ++ concat b1)) as (n2 & b2 & F1 & F2 & F3 & F4 & F5);
        [intros m Hm; apply H; right; exact Hm|exact E2|].
      exists (n1 ++ n2), (b1 ++ b2). rewrite F1, concat_app, rev_app_distr, <- !app_assoc.
      split; [reflexivity|split; [exact F2|split; [|split]]].
      + intros e He. apply in_app_iff in He. destruct He as [He|He].
        * apply E3 in He. apply In_nth_error in He. destruct He as [k Hk]. exists n, k. split; [left; reflexivity|].
          rewrite (slot_node _ E). exact Hk.
        * destruct (F3 e He) as (m & i & Hm & Hs). exists m, i. split; [right; exact Hm|exact Hs].
      + intros m i e [<- | Hm] Hs.
        * rewrite (slot_node _ E) in Hs. apply nth_error_In in Hs. destruct (E4 e Hs) as [X|X]; [left; apply in_app_iff; left; exact X|right; exact X].
        * destruct (F4 m i e Hm Hs) as [X|X]; [left; apply in_app_iff; right; exact X|].
          apply in_app_iff in X. destruct X as [X|X]; [left; apply in_app_iff; left; apply in_rev; exact X|right; exact X].
      + apply Forall2_app; assumption.
  Qed.

  Theorem graphviz_ok (s : st) ns g : wf s -> (forall n, In n ns -> s_nodes s n <> None) ->
    exists es bs, to_graphviz nname ename all ns g s =
        (s, Some (g ++ map (fun n => SNode (VNode n) (label all (nname n)) false) ns ++ concat bs)) /\
      NoDup es /\ (forall e, In e es <-> exists n i, In n ns /\ slot s (n, i) = Some e) /\
      Forall2 (fun e b => drawn s (lab e) e b) es bs.
  Proof.
    intros W H. unfold to_graphviz, to_graphviz_iter, bind. rewrite (node_loop_ok g H).
    destruct (@all_edges_ok s W ns [] (g ++ map (fun n => SNode (VNode n) (label all (nname n)) false) ns) H (NoDup_nil _))
      as (es & bs & E1 & E2 & E3 & E4 & E5).
    exists es, bs. rewrite E1, <- app_assoc. split; [reflexivity|split; [|split; [|exact E5]]].
    - rewrite app_nil_r in E2. apply NoDup_rev in E2. rewrite rev_involutive in E2. exact E2.
    - intros e. split; [apply E3|]. intros (n & i & Hn & Hs). destruct (E4 n i e Hn Hs) as [X|[]]. exact X.
  Qed.

  (** ** Degrees *)
  Lemma degree_app n a b : degree n (a ++ b) = degree n a + degree n b.
  Proof. unfold degree. rewrite map_app, list_sum_app. reflexivity. Qed.

  Lemma degree_nodes n f ns : degree n (map (fun m => SNode (VNode m) (f m) false) ns) = 0.
  Proof. induction ns as [|m ns IH]; [reflexivity|]. exact IH. Qed.

  (** the places at [n] where [e] is attached *)
  Definition at_node (l : list eid) (e : eid) : nat := count_occ Nat.eq_dec l e.

  Lemma count_two (l : list eid) e : forall k,
    (forall i j, nth_error l i = Some e -> nth_error l j = Some e -> i = j) ->
    nth_error l k = Some e -> count_occ Nat.eq_dec l e = 1.
  Proof.
    induction l as [|x l IH]; intros k H Hk; [destruct k; discriminate|]. cbn [count_occ].
    destruct (Nat.eq_dec x e) as [->|Hx].
    - f_equal. apply count_occ_not_In. intros Hin. apply In_nth_error in Hin. destruct Hin as [j Hj].
      specialize (H 0 (S j) eq_refl Hj). discriminate.
    - destruct k as [|k]; [injection Hk as Hk; congruence|]. apply (IH k); [|exact Hk].
      intros i j Hi Hj. specialize (H (S i) (S j) Hi Hj). lia.
  Qed.

  Lemma count_pair (l : list eid) e : forall a b, a < b ->
    (forall i, nth_error l i = Some e <-> i = a \/ i = b) -> count_occ Nat.eq_dec l e = 2.
  Proof.
    induction l as [|x l IH]; intros a b Hab H.
    - pose proof (proj2 (H a) (or_introl eq_refl)) as X. destruct a; discriminate X.
    - cbn [count_occ]. destruct a as [|a].
      + pose proof (proj2 (H 0) (or_introl eq_refl)) as H0. injection H0 as ->.
        destruct (Nat.eq_dec e e) as [_|C]; [|congruence]. f_equal. destruct b as [|b]; [lia|].
        apply (@count_two l e b); [|exact (proj2 (H (S b)) (or_intror eq_refl))].
        intros i j Hi Hj. pose proof (proj1 (H (S i)) Hi). pose proof (proj1 (H (S j)) Hj). lia.
      + destruct (Nat.eq_dec x e) as [->|_].
        * destruct (proj1 (H 0) eq_refl); lia.
        * destruct b as [|b]; [lia|]. apply (IH a b); [lia|]. intros i. split.
          { intros Hi. destruct (proj1 (H (S i)) Hi); lia. }
          { intros Hi. apply (proj2 (H (S i))). lia. }
  Qed.

  Lemma drawn_degree (s : st) n nd l e b : s_nodes s n = Some nd -> drawn s l e b ->
    degree n b = count_occ Nat.eq_dec (n_edges nd) e.
  Proof.
    intros E D. assert (HS : forall k, slot s (n, k) = nth_error (n_edges nd) k) by (intros; apply slot_node; exact E).
    destruct D as [m i H|p q Hpq H]; unfold degree; cbn [map list_sum vertex_is fold_right].
    - destruct (Nat.eqb_spec m n) as [->|Hn].
      + symmetry. apply (@count_two _ _ i).
        * intros a c Ha Hc. rewrite <- HS in Ha, Hc. apply H in Ha. apply H in Hc. congruence.
        * rewrite <- HS. apply H. reflexivity.
      + symmetry. apply count_occ_not_In. intros Hin. apply In_nth_error in Hin. destruct Hin as [k Hk].
        rewrite <- HS in Hk. apply H in Hk. congruence.
    - destruct p as [pn pa], q as [qn qa]. cbn [fst].
      destruct (Nat.eqb_spec pn n) as [->|Hp]; destruct (Nat.eqb_spec qn n) as [->|Hq]; cbn [Nat.add]; symmetry.
      + destruct (Nat.lt_total pa qa) as [L|[L|L]]; [|congruence|].
        * apply (@count_pair _ _ pa qa L). intros i. rewrite <- HS, H. split; intros [X|X]; [left|right|left|right]; congruence.
        * apply (@count_pair _ _ qa pa L). intros i. rewrite <- HS, H. split; intros [X|X]; [right|left|right|left]; congruence.
      + apply (@count_two _ _ pa).
        * intros a c Ha Hc. rewrite <- HS in Ha, Hc. apply H in Ha. apply H in Hc. destruct Ha, Hc; congruence.
        * rewrite <- HS. apply H. left. reflexivity.
      + apply (@count_two _ _ qa).
        * intros a c Ha Hc. rewrite <- HS in Ha, Hc. apply H in Ha. apply H in Hc. destruct Ha, Hc; congruence.
        * rewrite <- HS. apply H. right. reflexivity.
      + apply count_occ_not_In. intros Hin. apply In_nth_error in Hin. destruct Hin as [k Hk].
        rewrite <- HS in Hk. apply H in Hk. destruct Hk; congruence.
  Qed.

  Lemma count_sum (l : list eid) : forall es, NoDup es -> (forall e, In e l -> In e es) ->
    list_sum (map (fun e => count_occ Nat.eq_dec l e) es) = length l.
  Proof.
    induction l as [|x l IH]; intros es Hd H.
    - clear. induction es as [|e es IH]; [reflexivity|]. exact IH.
    - cbn [length]. rewrite <- (IH es Hd) by (intros e He; apply H; right; exact He).
      assert (Hx : In x es) by (apply H; left; reflexivity). clear IH H.
      induction es as [|e es IH]; [destruct Hx|]. inversion Hd as [|y q Hn Hd']; subst.
      cbn [map list_sum fold_right count_occ] in *. unfold list_sum in *. destruct (Nat.eq_dec x e) as [->|Hne].
      + cbn [Nat.add]. f_equal. f_equal.
        f_equal. apply map_ext_in. intros a Ha. destruct (Nat.eq_dec e a) as [->|]; [contradiction|reflexivity].
      + destruct Hx as [->|Hx]; [congruence|]. rewrite (IH Hd' Hx). lia.
  Qed.

  Theorem graphviz_degree (s : st) ns n nd : wf s -> (forall m, In m ns -> s_nodes s m <> None) -> In n ns ->
    s_nodes s n = Some nd ->
    exists d, to_graphviz nname ename all ns [] s = (s, Some d) /\ degree n d = rank (n_t nd).
  Proof.
    intros W H Hn E. destruct (graphviz_ok [] W H) as (es & bs & E1 & E2 & E3 & E4).
    eexists. split; [exact E1|]. cbn [app]. rewrite degree_app, degree_nodes, <- (wf_rank W E). cbn [Nat.add].
    rewrite <- (@count_sum (n_edges nd) es E2).
    - clear E1 E2 E3. induction E4 as [|e b es bs Hd _ IH]; [reflexivity|].
      cbn [concat map]. rewrite degree_app, IH, (drawn_degree E Hd). reflexivity.
    - intros e He. apply E3. apply In_nth_error in He. destruct He as [k Hk]. exists n, k. split; [exact Hn|].
      rewrite (slot_node _ E). exact Hk.
  Qed.

  (** a drawing of a set of nodes closed under neighbours declares its vertices *)
  Theorem graphviz_declared (s : st) ns : wf s -> (forall n, In n ns -> s_nodes s n <> None) ->
    (forall p q e, In (fst p) ns -> slot s p = Some e -> slot s q = Some e -> In (fst q) ns) ->
    exists d, to_graphviz nname ename all ns [] s = (s, Some d) /\ declared d.
  Proof.
    intros W H HC. destruct (graphviz_ok [] W H) as (es & bs & E1 & E2 & E3 & E4).
    eexists. split; [exact E1|]. cbn [app]. intros v w l Hin. apply in_app_iff in Hin. destruct Hin as [Hin|Hin].
    - apply in_map_iff in Hin. destruct Hin as (m & Hm & _). discriminate.
    - apply in_concat in Hin. destruct Hin as (b & Hb & Hin).
      assert (X : exists e, In e es /\ drawn s (lab e) e b).
      { clear - E4 Hb. induction E4 as [|e c es bs Hd _ IH]; [destruct Hb|]. destruct Hb as [<- | Hb].
        - exists e. split; [left; reflexivity|exact Hd].
        - destruct (IH Hb) as (e' & A & B). exists e'. split; [right; exact A|exact B]. }
      destruct X as (e & He & Hd). apply E3 in He. destruct He as (n & i & Hn & Hs).
      assert (HN : forall q, slot s q = Some e ->
        In (SNode (VNode (fst q)) (label all (nname (fst q))) false)
           (map (fun m => SNode (VNode m) (label all (nname m)) false) ns)).
      { intros q Hq. apply (in_map (fun m => SNode (VNode m) (label all (nname m)) false)). exact (HC (n, i) q e Hn Hs Hq). }
      destruct Hd as [m k Hm|p q Hpq Hm].
      + destruct Hin as [Hin|[Hin|[]]]; [discriminate|]. injection Hin as <- <- _. split.
        * exists [], true. apply in_app_iff. right. apply in_concat. eexists. split; [exact Hb|left; reflexivity].
        * eexists _, _. apply in_app_iff. left. apply (HN (m, k)). apply Hm. reflexivity.
      + destruct Hin as [Hin|[]]. injection Hin as <- <- _. split; eexists _, _; apply in_app_iff; left; apply HN; apply Hm; auto.
  Qed.
End Facts.
