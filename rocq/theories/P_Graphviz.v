(** * C65: to_graphviz draws the network *)
From Coq Require Import ZArith Lia.
From Verif Require Import Prelude Algebra Tensor Graph GraphBase GraphExamples Graphviz GraphvizSpec GraphvizFacts.
Set Implicit Arguments.
Unset Strict Implicit.

(** one visible vertex per node, in order, then every edge with an end at one of the nodes exactly once: between its two
    nodes, or between its node and a vertex of its own if it dangles.  The network is unchanged. *)
Theorem C65_drawing (R : csr) (nname : nid -> list nat) (ename : eid -> list nat) all (s : @st R) ns g : wf s ->
  (forall n, In n ns -> s_nodes s n <> None) ->
  exists es bs, to_graphviz nname ename all ns g s =
      (s, Some (g ++ map (fun n => SNode (VNode n) (label all (nname n)) false) ns ++ concat bs)) /\
    NoDup es /\ (forall e, In e es <-> exists n i, In n ns /\ slot s (n, i) = Some e) /\
    Forall2 (fun e b => drawn s (label all (ename e)) e b) es bs.
Proof. exact (@graphviz_ok R nname ename all s ns g). Qed.
Print Assumptions C65_drawing.

(** as many ends of edges are drawn at a node as its tensor has axes; a trace edge counts twice *)
Theorem C65_degree (R : csr) (nname : nid -> list nat) (ename : eid -> list nat) all (s : @st R) ns n nd : wf s ->
  (forall m, In m ns -> s_nodes s m <> None) -> In n ns -> s_nodes s n = Some nd ->
  exists d, to_graphviz nname ename all ns [] s = (s, Some d) /\ degree n d = rank (n_t nd).
Proof. exact (@graphviz_degree R nname ename all s ns n nd). Qed.
Print Assumptions C65_degree.

(** if the neighbours of the nodes are given too, every edge ends at vertices of the drawing *)
Theorem C65_declared (R : csr) (nname : nid -> list nat) (ename : eid -> list nat) all (s : @st R) ns : wf s ->
  (forall n, In n ns -> s_nodes s n <> None) ->
  (forall p q e, In (fst p) ns -> slot s p = Some e -> slot s q = Some e -> In (fst q) ns) ->
  exists d, to_graphviz nname ename all ns [] s = (s, Some d) /\ declared d.
Proof. exact (@graphviz_declared R nname ename all s ns). Qed.
Print Assumptions C65_declared.

(** labels: names are shown as they are, except generated ones unless asked for *)
Theorem C65_label (all : bool) (name : list nat) :
  (label all name = name \/ label all name = []) /\ (label all name <> name -> all = false /\ exists r, name = 95 :: 95 :: r) /\
  (forall r, name = 95 :: 95 :: r -> all = false -> label all name = []).
Proof.
  unfold label. split; [|split].
  - destruct (negb _ || all); auto.
  - intros H. destruct all; [rewrite Bool.orb_true_r in H; congruence|]. split; [reflexivity|].
    destruct name as [|a [|b r]]; [cbn in H; congruence|cbn in H| ].
    + do 96 (destruct a as [|a]; [cbn in H; congruence|]). cbn in H. congruence.
    + destruct (Nat.eq_dec a 95) as [->|Ha]; [destruct (Nat.eq_dec b 95) as [->|Hb]; [exists r; reflexivity|]|]; exfalso; apply H.
      * do 96 (destruct b as [|b]; [try reflexivity; congruence|]). reflexivity.
      * do 96 (destruct a as [|a]; [try reflexivity; congruence|]). reflexivity.
  - intros r -> ->. reflexivity.
Qed.
Print Assumptions C65_label.

(** the network of GraphExamples.v: three nodes, a double bond, a trace edge and a dangling edge *)
Definition nm (n : nid) : list nat := if n =? 0 then [97] else [95; 95; n].
Definition em (e : eid) : list nat := [95; 95].

Example C65_ex : wf ex_s /\ (forall n, In n [0; 1; 2] -> s_nodes ex_s n <> None) /\
  (forall p q e, In (fst p) [0; 1; 2] -> slot ex_s p = Some e -> slot ex_s q = Some e -> In (fst q) [0; 1; 2]) /\
  snd (to_graphviz nm em false [0; 1; 2] [] ex_s) =
  Some [SNode (VNode 0) [97] false; SNode (VNode 1) [] false; SNode (VNode 2) [] false;
        SEdge (VNode 0) (VNode 1) []; SEdge (VNode 0) (VNode 1) []; SEdge (VNode 0) (VNode 0) [];
        SEdge (VNode 1) (VNode 2) []; SNode (VInvis 2 1) [] true; SEdge (VInvis 2 1) (VNode 2) []].
Proof.
  split; [apply ex_wf|split; [|split; [|vm_compute; reflexivity]]].
  - intros n [<-|[<-|[<-|[]]]]; vm_compute; discriminate.
  - intros p q e _ _ Hq. destruct (slot_lt ex_wf Hq) as [L _]. change (s_nn ex_s) with 3 in L.
    destruct (fst q) as [|[|[|]]]; cbn; auto; lia.
Qed.
