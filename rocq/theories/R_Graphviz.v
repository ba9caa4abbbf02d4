(** * C65, refuted parts *)
From Coq Require Import ZArith.
From Verif Require Import Prelude Algebra Tensor Graph GraphBase GraphExamples Graphviz GraphvizSpec GraphvizFacts.
Set Implicit Arguments.
Unset Strict Implicit.

(** The annotation allows any iterable, but an iterator is used up by the first loop: the drawing has all the nodes and no
    edge, without an error. *)
Theorem C65_iterator_refuted : exists (s : @st Z_csr) ns d, wf s /\ (forall n, In n ns -> s_nodes s n <> None) /\
  to_graphviz_once (fun _ => []) (fun _ => []) true ns [] s = (s, Some d) /\
  (exists n nd, In n ns /\ s_nodes s n = Some nd /\ degree n d <> rank (n_t nd)) /\ (forall v w l, ~ In (SEdge v w l) d).
Proof.
  exists ex_s, [0; 1; 2], (map (fun n => SNode (VNode n) [] false) [0; 1; 2]).
  assert (HN : forall n, In n [0; 1; 2] -> s_nodes ex_s n <> None) by (intros n [<-|[<-|[<-|[]]]]; vm_compute; discriminate).
  split; [apply ex_wf|]. split; [exact HN|].
  split; [unfold to_graphviz_once, to_graphviz_iter, bind; rewrite (node_loop_ok (fun _ => []) true [] HN); reflexivity|]. split.
  - destruct (s_nodes ex_s 0) as [nd|] eqn:E; [|exfalso; apply (HN 0); [left; reflexivity|exact E]].
    exists 0, nd. split; [left; reflexivity|]. split; [exact E|].
    assert (X : option_map (fun nd => rank (n_t nd)) (s_nodes ex_s 0) = Some 4) by (vm_compute; reflexivity).
    rewrite E in X. injection X as X. rewrite X. vm_compute. discriminate.
  - intros v w l [H|[H|[H|[]]]]; discriminate.
Qed.
Print Assumptions C65_iterator_refuted.

(** Of a part of a network the drawing is not a drawing of that part: an edge to a node that was not given is drawn to a
    vertex that has not been declared, which graphviz then shows with the id of the node as its label. *)
Theorem C65_part_refuted : exists (s : @st Z_csr) ns d, wf s /\ (forall n, In n ns -> s_nodes s n <> None) /\
  to_graphviz (fun _ => []) (fun _ => []) true ns [] s = (s, Some d) /\ ~ declared d.
Proof.
  assert (HN : forall n, In n [2] -> s_nodes ex_s n <> None) by (intros n [<-|[]]; vm_compute; discriminate).
  destruct (@graphviz_ok Z_csr (fun _ => []) (fun _ => []) true ex_s [2] [] ex_wf HN) as (es & bs & E & _).
  exists ex_s, [2]. eexists. split; [apply ex_wf|]. split; [exact HN|]. split; [exact E|].
  assert (X : snd (to_graphviz (fun _ => []) (fun _ => []) true [2] [] ex_s) =
    Some [SNode (VNode 2) [] false; SEdge (VNode 1) (VNode 2) []; SNode (VInvis 2 1) [] true;
          SEdge (VInvis 2 1) (VNode 2) []]) by (vm_compute; reflexivity).
  rewrite E in X. cbn [snd] in X. injection X as X. cbn [app map label] in *. rewrite X.
  intros H. destruct (H (VNode 1) (VNode 2) []) as [(l & b & Hin) _]; [cbn; auto|].
  destruct Hin as [Y|[Y|[Y|[Y|[]]]]]; discriminate Y.
Qed.
Print Assumptions C65_part_refuted.
