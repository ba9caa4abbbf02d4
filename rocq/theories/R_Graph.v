(** * Refuted claims about the graph operations: witnesses of behaviour recorded in DESIGN.md, Findings *)
From Coq Require Import ZArith.
From Verif Require Import Prelude Algebra Tensor TensorFacts Einsum EinsumFacts NetworkFacts Graph GraphBase GraphContract GraphOps GraphValue GraphOuter GraphConnect GraphProg GraphSched GraphExamples GraphQuery GraphCopy GraphCopyFacts GraphQueryFacts GraphSlice.
Set Implicit Arguments.
Unset Strict Implicit.

(** a slot whose edge does not point back to it *)
Lemma not_wf_slot (s : @st Z_csr) p e ed : slot s p = Some e -> s_edges s e = Some ed -> ~ In p (ends ed) -> ~ wf s.
Proof. intros Hp He Hn W. destruct (wf_slot W Hp) as (ed' & E & _ & I & _). congruence. Qed.
(** an edge end that does not carry the edge *)
Lemma not_wf_end (s : @st Z_csr) p q e ed : slot s p = Some e -> s_edges s e = Some ed -> In q (ends ed) -> slot s q <> Some e -> ~ wf s.
Proof. intros Hp He Hn Hq W. destruct (wf_slot W Hp) as (ed' & E & _ & _ & _ & K). rewrite He in E. injection E as <-. apply Hq. apply K; auto. Qed.
Lemma not_wf_dim (s : @st Z_csr) p q e ed : slot s p = Some e -> s_edges s e = Some ed -> In q (ends ed) -> dimat s q <> dimat s p -> ~ wf s.
Proof. intros Hp He Hn Hq W. destruct (wf_slot W Hp) as (ed' & E & _ & _ & _ & K). rewrite He in E. injection E as <-. apply Hq. apply K; auto. Qed.
Lemma not_wf_rank (s : @st Z_csr) n nd : s_nodes s n = Some nd -> length (n_edges nd) <> rank (n_t nd) -> ~ wf s.
Proof. intros Hn H W. apply H. apply (wf_rank W Hn). Qed.

Definition reached (s : @st Z_csr) : Prop := exists l, exec_ops idl l (@empty_st Z_csr) = (s, Some tt).
Lemma reached_wf s : reached s -> wf s.
Proof. intros (l & H). apply (exec_ops_wf idl_perm empty_wf H). Qed.
Definition build (l : list (@op Z_csr)) : @st Z_csr := run (exec_ops idl l) (@empty_st Z_csr).
Lemma build_reached l : snd (exec_ops idl l (@empty_st Z_csr)) = Some tt -> reached (build l).
Proof. intros H. exists l. apply run_eq. exact H. Qed.

Definition vec := zt 1 [2].
Definition mat := zt 1 [2; 2].

(** connect accepts an edge object that is no longer installed on its node (it was replaced by an
    earlier connect, still dangles, and is not disabled): the live edge is overwritten on one side
    only, so "connect keeps every graph well-formed" is false for such handles (network_components.py 1939-1968). *)
Theorem connect_stale_refuted : exists (s s' : @st Z_csr) e1 e2 e d1 d2,
  reached s /\ s_edges s e1 = Some d1 /\ s_edges s e2 = Some d2 /\ e_2 d1 = None /\ e_2 d2 = None /\ e_dis d1 = false /\ e_dis d2 = false /\ e1 <> e2 /\
  connect e1 e2 s = (s', Some e) /\ ~ wf s'.
Proof.
  set (s := build [OpNode vec None; OpNode vec None; OpNode vec None; OpConnect (0, 0) (1, 0)]).
  exists s, (run (connect 0 2) s), 0, 2, 4. do 2 eexists.
  split; [apply build_reached; vm_compute; reflexivity|].
  split; [vm_compute; reflexivity|]. split; [vm_compute; reflexivity|]. do 4 (split; [vm_compute; reflexivity|]).
  split; [discriminate|]. split; [apply run_eq; vm_compute; reflexivity|].
  apply (@not_wf_end _ (1, 0) (0, 0) 3 (Edge 0 0 (Some (1, 0)) false)); try (vm_compute; reflexivity); [left; reflexivity|vm_compute; discriminate].
Qed.
Print Assumptions connect_stale_refuted.

(** outer_product(n, n) for a node of rank 1 raises after having moved the node's edge to the new
    node's axis: the graph it leaves behind is not well-formed (2127-2186). *)
Theorem outer_product_self_refuted : exists (s s' : @st Z_csr) n, reached s /\ outer_product n n None s = (s', None) /\ ~ wf s'.
Proof.
  set (s := build [OpNode vec None]). exists s, (fst (outer_product 0 0 None s)), 0.
  split; [apply build_reached; vm_compute; reflexivity|]. split.
  - assert (snd (outer_product 0 0 None s) = None) as <- by (vm_compute; reflexivity). apply surjective_pairing.
  - eapply (@not_wf_slot _ (0, 0) 0); [vm_compute; reflexivity|vm_compute; reflexivity|]. cbn. intros [K|[]]. discriminate K.
Qed.
Print Assumptions outer_product_self_refuted.

(** reorder_edges with a list that repeats an edge passes the set comparison, moves edges and then
    raises in transpose: "reorder_edges puts the edges in the requested order or raises leaving the
    graph well-formed" is false (202-253). *)
Theorem reorder_edges_repeat_refuted : exists (s s' : @st Z_csr) n order, reached s /\ reorder_edges n order s = (s', None) /\ ~ wf s'.
Proof.
  set (s := build [OpNode mat None]). exists s, (fst (reorder_edges 0 [0; 1; 0] s)), 0, [0; 1; 0].
  split; [apply build_reached; vm_compute; reflexivity|]. split.
  - assert (snd (reorder_edges 0 [0; 1; 0] s) = None) as <- by (vm_compute; reflexivity). apply surjective_pairing.
  - eapply (@not_wf_slot _ (0, 0) 0); [vm_compute; reflexivity|vm_compute; reflexivity|]. cbn. intros [K|[]]. discriminate K.
Qed.
Print Assumptions reorder_edges_repeat_refuted.

(** split_edge on a trace edge leaves the node with too few axis names; a later contract_between or
    reorder_axes on that node raises although the graph is well-formed (1495-1536). *)
Theorem split_trace_names_refuted : exists (s s' : @st Z_csr) n,
  reached s /\ (exists nd, s_nodes s n = Some nd /\ length (n_names nd) < rank (n_t nd) /\ is_perm (rank (n_t nd)) (rev (seq 0 (rank (n_t nd)))) /\
  reorder_axes n (rev (seq 0 (rank (n_t nd)))) s = (s', None)).
Proof.
  set (s := build [OpNode (zt 1 [4; 4]) None; OpConnect (0, 0) (0, 1); OpSplit (0, 0) [2; 2] None]).
  exists s, (fst (reorder_axes 0 [3; 2; 1; 0] s)), 0. split; [apply build_reached; vm_compute; reflexivity|].
  eexists. split; [vm_compute; reflexivity|]. split; [apply Nat.ltb_lt; vm_compute; reflexivity|]. cbn [n_t rank shape length seq rev app Nat.add].
  split; [apply Permutation_sym, Permutation_rev|].
  assert (snd (reorder_axes 0 [3; 2; 1; 0] s) = None) as <- by (vm_compute; reflexivity). apply surjective_pairing.
Qed.
Print Assumptions split_trace_names_refuted.

(** after splitting a trace edge, contracting one of the new edges raises an IndexError in
    fresh_edges (524-532), when the graph has already been changed *)
Theorem split_trace_contract_refuted : exists (s s' : @st Z_csr) p e,
  reached s /\ slot s p = Some e /\ contract e None s = (s', None) /\ ~ wf s'.
Proof.
  set (s := build [OpNode (zt 1 [4; 4]) None; OpConnect (0, 0) (0, 1); OpSplit (0, 0) [2; 2] None]).
  set (s' := fst (contract 7 None s)).
  exists s, s', (0, 0), 7. split; [apply build_reached; vm_compute; reflexivity|]. split; [vm_compute; reflexivity|].
  split.
  - assert (snd (contract 7 None s) = None) as <- by (vm_compute; reflexivity). apply surjective_pairing.
  - intros W. assert (slot s' (0, 3) = Some 8) as H by (vm_compute; reflexivity).
    destruct (wf_slot W H) as (ed & E & _ & Hin & _). vm_compute in E. injection E as <-. vm_compute in Hin. intuition discriminate.
Qed.
Print Assumptions split_trace_contract_refuted.

(** redirect_edge checks neither dimensions nor that the new node's axis dangles
    (network_components.py 986-1037): both ways of breaking well-formedness. *)
Theorem redirect_edge_dim_refuted : exists (s s' : @st Z_csr) e new old, reached s /\ redirect_edge e new old s = (s', Some tt) /\ ~ wf s'.
Proof.
  set (s := build [OpNode vec None; OpNode vec None; OpNode (zt 1 [3]) None; OpConnect (0, 0) (1, 0)]).
  exists s, (run (redirect_edge 3 2 0) s), 3, 2, 0. split; [apply build_reached; vm_compute; reflexivity|].
  split; [apply run_eq; vm_compute; reflexivity|].
  apply (@not_wf_dim _ (1, 0) (2, 0) 3 (Edge 2 0 (Some (1, 0)) false)); try (vm_compute; reflexivity); [left; reflexivity|vm_compute; discriminate].
Qed.
Print Assumptions redirect_edge_dim_refuted.

Theorem redirect_edge_override_refuted : exists (s s' : @st Z_csr) e new old, reached s /\ redirect_edge e new old s = (s', Some tt) /\ ~ wf s'.
Proof.
  set (s := build [OpNode vec None; OpNode vec None; OpNode vec None; OpNode vec None; OpConnect (0, 0) (1, 0); OpConnect (2, 0) (3, 0)]).
  exists s, (run (redirect_edge 4 2 0) s), 4, 2, 0. split; [apply build_reached; vm_compute; reflexivity|].
  split; [apply run_eq; vm_compute; reflexivity|].
  apply (@not_wf_end _ (3, 0) (2, 0) 5 (Edge 2 0 (Some (3, 0)) false)); try (vm_compute; reflexivity); [left; reflexivity|vm_compute; discriminate].
Qed.
Print Assumptions redirect_edge_override_refuted.

(** copy creates a second edge object for a trace edge (network_operations.py:74-76) and returns that
    one in the edge dictionary, although Node.copy has already put an edge on the copied node: "the
    edge dictionary maps every edge to the edge installed at the corresponding axes of the copies"
    is false for trace edges. *)
Theorem copy_trace_edge_dict_refuted : exists (s s' : @st Z_csr) d ee e f n N k,
  reached s /\ named (R := Z_cjr) s n /\ copy (R := Z_cjr) idl [n] false s = (s', Some (d, ee)) /\ dget d n = Some N /\ dget ee e = Some f /\
  slot s (n, k) = Some e /\ forall m j, ~ slot s' (m, j) = Some f.
Proof.
  set (s := build [OpNode mat None; OpConnect (0, 0) (0, 1)]).
  set (s' := run (copy (R := Z_cjr) idl [0] false) s).
  exists s, s', [(0, 1)], [(2, 6)], 2, 6, 0, 1, 0.
  split; [apply build_reached; vm_compute; reflexivity|]. split; [apply (@namedb_spec Z_cjr); vm_compute; reflexivity|].
  split; [apply run_eq; vm_compute; reflexivity|]. split; [reflexivity|]. split; [reflexivity|]. split; [vm_compute; reflexivity|].
  intros m j K. unfold slot in K. cbn [fst snd] in K.
  assert (forall m, match s_nodes s' m with Some nd => existsb (Nat.eqb 6) (n_edges nd) | None => false end = false) as Q.
  { intros [|[|i]]; vm_compute; reflexivity. }
  specialize (Q m). destruct (s_nodes s' m) as [nd|]; [|discriminate]. apply nth_error_In in K.
  assert (existsb (Nat.eqb 6) (n_edges nd) = true) by (apply existsb_exists; exists 6; auto). congruence.
Qed.
Print Assumptions copy_trace_edge_dict_refuted.

(** slice_edge with a negative start selecting up to the end, e.g. the last index of an edge of
    dimension 2: numpy evaluates [tensor[-1:0]], which is empty.  A start below -dimension is accepted. *)
Theorem C22_negative_start_refuted : exists (s s' : @st Z_csr) e, reached s /\ on s 0 e /\ edim s e = 2 /\
  slice_edge e (-1) 1 s = (s', Some e) /\ edim s' e = 0.
Proof.
  set (s := build [OpNode vec None]). exists s, (run (slice_edge 0 (-1) 1) s), 0.
  split; [apply build_reached; vm_compute; reflexivity|]. split; [exists 0; vm_compute; reflexivity|].
  split; [vm_compute; reflexivity|]. split; [apply run_eq; vm_compute; reflexivity|]. vm_compute. reflexivity.
Qed.
Print Assumptions C22_negative_start_refuted.
Theorem C22_below_range_refuted : exists (s s' : @st Z_csr) e, reached s /\ on s 0 e /\ edim s e = 2 /\
  slice_edge e (-3) 2 s = (s', Some e) /\ edim s' e = 1.
Proof.
  set (s := build [OpNode vec None]). exists s, (run (slice_edge 0 (-3) 2) s), 0.
  split; [apply build_reached; vm_compute; reflexivity|]. split; [exists 0; vm_compute; reflexivity|].
  split; [vm_compute; reflexivity|]. split; [apply run_eq; vm_compute; reflexivity|]. vm_compute. reflexivity.
Qed.
Print Assumptions C22_below_range_refuted.
