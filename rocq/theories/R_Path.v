(** * Refuted claims about the path contractors (DESIGN.md, Findings) *)
From Coq Require Import ZArith.
From Verif Require Import Prelude Algebra Tensor TensorFacts Einsum EinsumFacts NetworkFacts Graph GraphBase GraphContract GraphOps GraphValue GraphOuter GraphConnect GraphProg GraphSched GraphQuery GraphQueryFacts GraphExamples GraphTotal PathContract PathFacts P_Total P_Path R_Graph.
Set Implicit Arguments.
Unset Strict Implicit.

(** a 2x2 node whose second edge leads to a vector *)
Definition leaf_s := build [OpNode mat None; OpNode vec None; OpConnect (0, 1) (1, 0)].
Lemma leaf_reached : reached leaf_s.
Proof. apply build_reached. vm_compute. reflexivity. Qed.
Lemma leaf_node : is_node leaf_s 0 /\ nameable leaf_s 0.
Proof. split; [vm_compute; discriminate|apply nameableb; vm_compute; reflexivity]. Qed.
Lemma leaf_boundary : forall e, In e [0; 3] <-> boundary leaf_s [0] e.
Proof.
  intros e. rewrite <- (@boundary_list leaf_s [0] [0; 3] (reached_wf leaf_reached)); [reflexivity|intros n [<-|[]]; apply leaf_node|vm_compute; reflexivity].
Qed.

(** auto on one node with an edge leading to a node outside the list contracts the outside node too, and then
    refuses the (correct) output order (path_contractors.py:219-243); [base] accepts the same call. *)
Theorem C23_auto_one_outside_refuted : exists (s : @st Z_csr) n o algs, reached s /\ is_node s n /\ nameable s n /\
  (forall k, algorithm_ok (algs k)) /\ order_for s [n] (Some o) false /\
  snd (auto idl algs [n] (Some o) false s) = None /\ snd (base idl (algs 1) [n] (Some o) false s) = Some n.
Proof.
  exists leaf_s, 0, [0; 3], (fun _ => first_two). split; [exact leaf_reached|]. split; [apply leaf_node|]. split; [apply leaf_node|]. split; [intros _; exact first_two_ok|].
  split; [right; split; [repeat constructor; cbn; intuition congruence|exact leaf_boundary]|]. split; vm_compute; reflexivity.
Qed.
Print Assumptions C23_auto_one_outside_refuted.
(** without an output order it silently returns the contraction of the node with its neighbour *)
Theorem C23_auto_one_swallows_refuted : exists (s : @st Z_csr) n m algs N, reached s /\ n <> m /\ is_node s m /\
  snd (auto idl algs [n] None false s) = Some N /\ s_nodes (fst (auto idl algs [n] None false s)) m <> s_nodes s m /\
  ~ contracted_to s [n] (fst (auto idl algs [n] None false s)) N None false.
Proof.
  exists leaf_s, 0, 1, (fun _ => first_two), 2. split; [exact leaf_reached|]. split; [discriminate|]. split; [vm_compute; discriminate|]. split; [vm_compute; reflexivity|].
  set (s' := fst (auto idl (fun _ => first_two) [0] None false leaf_s)).
  assert (edges_at s' 1 <> edges_at leaf_s 1) as K by (vm_compute; discriminate).
  assert (s_nodes s' 1 <> s_nodes leaf_s 1) as K2 by (intros E; apply K; unfold edges_at; rewrite E; reflexivity).
  split; [exact K2|]. intros C. apply K2. apply (co_out C); [vm_compute; discriminate|]. intros [E|[]]; discriminate E.
Qed.
Print Assumptions C23_auto_one_swallows_refuted.

(** auto on one node with ignore_edge_order and no order raises: reorder_edges(None) is called unconditionally (241) *)
Theorem C23_auto_one_ignore_refuted : exists (s : @st Z_csr) n algs, reached s /\ is_node s n /\ nameable s n /\
  (forall k, algorithm_ok (algs k)) /\ (forall m e, between s n m e -> m = n) /\ order_for s [n] None true /\ snd (auto idl algs [n] None true s) = None.
Proof.
  set (s := build [OpNode mat None]). exists s, 0, (fun _ => first_two). split; [apply build_reached; vm_compute; reflexivity|]. split; [vm_compute; discriminate|].
  split; [apply nameableb; vm_compute; reflexivity|]. split; [intros _; exact first_two_ok|]. split; [|split; [left; reflexivity|vm_compute; reflexivity]].
  intros m e ([x i] & [y j] & _ & E1 & E2 & _ & K). cbn in E1, E2. subst x y. destruct m as [|m]; [reflexivity|]. vm_compute in K. discriminate K.
Qed.
Print Assumptions C23_auto_one_ignore_refuted.

(** contract_path forgets the nodes obtained by contracting trace edges (path_contractors.py:355-359): a network with
    a trace edge is contracted from the stale nodes, and the output order is refused *)
Theorem C23_contract_path_trace_refuted : exists (s : @st Z_csr) ns path order, wf s /\ NoDup ns /\
  (forall n, In n ns -> is_node s n /\ nameable s n) /\ valid_path (length ns) path /\ NoDup order /\ (forall e, In e order <-> boundary s ns e) /\
  snd (contract_path idl path ns order s) = None.
Proof.
  exists ex_s, [0; 1; 2], [(0, 1); (0, 1)], [8]. split; [exact ex_wf|]. split; [apply ex_net|]. split; [exact ex_nodes|].
  split; [cbn; repeat split; lia|]. split; [repeat constructor; intros []|]. split; [|vm_compute; reflexivity].
  apply boundary_list; [exact ex_wf|intros n Hn; apply (ex_nodes Hn)|vm_compute; reflexivity].
Qed.
Print Assumptions C23_contract_path_trace_refuted.
