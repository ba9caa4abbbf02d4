(** * Properties C03-C05, C07, C11, C48: queries and compound operations on the graph *)
From Coq Require Import ZArith.
From Verif Require Import Prelude Algebra Tensor TensorFacts Einsum EinsumFacts NetworkFacts Graph GraphBase GraphContract GraphOps GraphValue GraphOuter GraphConnect GraphProg GraphSched GraphQuery GraphQueryFacts GraphCompound GraphExamples.
Set Implicit Arguments.
Unset Strict Implicit.

(** The specifications [on], [between], [open_on], [connected] (GraphQueryFacts.v) speak only about
    which edge sits in which (node, axis) slot. *)

(** C11: reachable returns the connected component, in every iteration order of the sets *)
Theorem C11_reachable (R : csr) (iter : list nat -> list nat) (iter_perm : forall l, Permutation (iter l) l) (s : @st R) inputs :
  wf s -> inputs <> [] -> (forall n, In n inputs -> is_node s n) ->
  exists l, reachable iter inputs s = (s, Some l) /\ NoDup l /\ forall m, In m l <-> exists n, In n inputs /\ connected s n m.
Proof. exact (@reachable_spec R iter iter_perm s inputs). Qed.
Print Assumptions C11_reachable.
Theorem C11_reachable_edge (R : csr) (iter : list nat -> list nat) (iter_perm : forall l, Permutation (iter l) l) (s : @st R) n e :
  wf s -> on s n e ->
  exists l, reachable_edge iter e s = (s, Some l) /\ NoDup l /\ forall m, In m l <-> connected s n m.
Proof. exact (@reachable_edge_spec R iter iter_perm s n e). Qed.
Print Assumptions C11_reachable_edge.
Theorem C11_connected_equivalence (R : csr) (s : @st R) :
  (forall a, connected s a a) /\ (forall a b, connected s a b -> connected s b a) /\
  (forall a b c, connected s a b -> connected s b c -> connected s a c).
Proof. split; [exact (conn_refl s)|]. split; [exact (@connected_sym R s)|exact (@connected_trans R s)]. Qed.
Print Assumptions C11_connected_equivalence.
Theorem C11_check_connected (R : csr) (iter : list nat -> list nat) (iter_perm : forall l, Permutation (iter l) l) (s : @st R) n ns :
  wf s -> (forall m, In m (n :: ns) -> is_node s m) ->
  (check_connected iter (n :: ns) s = (s, Some tt) <-> forall m, In m ns -> connected s n m) /\
  (check_connected iter (n :: ns) s = (s, Some tt) \/ check_connected iter (n :: ns) s = (s, None)).
Proof. exact (@check_connected_spec R iter iter_perm s n ns). Qed.
Print Assumptions C11_check_connected.

(** the network of GraphExamples.v and a second component made of nodes 3 and 4 *)
Definition ex_q_ops : list (@op Z_csr) :=
  ex_ops ++ [OpNode (zt 1 [2; 3]) None; OpNode (zt 2 [3; 2]) None; OpConnect (4, 0) (3, 1)].
Definition ex_q : @st Z_csr := run (exec_ops idl ex_q_ops) (@empty_st Z_csr).
Lemma ex_q_wf : wf ex_q.
Proof. apply (@exec_ops_wf Z_csr idl idl_perm ex_q_ops (@empty_st Z_csr) ex_q tt empty_wf); apply run_eq; vm_compute; reflexivity. Qed.
Example C11_example : wf ex_q /\
  snd (reachable rvl [1] ex_q) = Some [1; 0; 2] /\ snd (reachable idl [4] ex_q) = Some [4; 3] /\
  snd (reachable idl [2; 3] ex_q) = Some [2; 1; 3; 4; 0] /\ snd (reachable_edge idl 12 ex_q) = Some [1; 0; 2] /\
  check_connected idl [0; 2] ex_q = (ex_q, Some tt) /\ check_connected idl [0; 3] ex_q = (ex_q, None).
Proof. split; [exact ex_q_wf|]. repeat split; vm_compute; reflexivity. Qed.

(** C48: the edge queries *)
Theorem C48_get_shared_edges (R : csr) (iter : list nat -> list nat) (iter_perm : forall l, Permutation (iter l) l) (s : @st R) n1 n2 :
  wf s -> is_node s n1 ->
  exists l, get_shared_edges iter n1 n2 s = (s, Some l) /\ NoDup l /\ forall e, In e l <-> between s n1 n2 e.
Proof. exact (@get_shared_edges_spec R iter iter_perm s n1 n2). Qed.
Print Assumptions C48_get_shared_edges.
Theorem C48_get_parallel_edges (R : csr) (iter : list nat -> list nat) (iter_perm : forall l, Permutation (iter l) l) (s : @st R) e n1 n2 :
  wf s -> between s n1 n2 e ->
  exists l, get_parallel_edges iter e s = (s, Some l) /\ NoDup l /\ forall f, In f l <-> between s n1 n2 f.
Proof. exact (@get_parallel_edges_spec R iter iter_perm s e n1 n2). Qed.
Print Assumptions C48_get_parallel_edges.
Theorem C48_get_parallel_dangling (R : csr) (iter : list nat -> list nat) (iter_perm : forall l, Permutation (iter l) l) (s : @st R) e n :
  wf s -> open_on s n e ->
  exists l, get_parallel_edges iter e s = (s, Some l) /\ NoDup l /\ forall f, In f l <-> open_on s n f.
Proof. exact (@get_parallel_dangling_spec R iter iter_perm s e n). Qed.
Print Assumptions C48_get_parallel_dangling.
Theorem C48_get_all_nondangling (R : csr) (iter : list nat -> list nat) (iter_perm : forall l, Permutation (iter l) l) (s : @st R) ns :
  wf s -> (forall n, In n ns -> is_node s n) ->
  exists l, get_all_nondangling iter ns s = (s, Some l) /\ NoDup l /\
    forall e, In e l <-> exists n m, In n ns /\ between s n m e.
Proof. exact (@get_all_nondangling_spec R iter iter_perm s ns). Qed.
Print Assumptions C48_get_all_nondangling.
(** dangling edges in order of the nodes, for each node in order of its axes *)
Theorem C48_get_all_dangling (R : csr) (s : @st R) ns :
  wf s -> (forall n, In n ns -> is_node s n) ->
  exists l, get_all_dangling ns s = (s, Some l) /\
    (forall e, In e l <-> exists n, In n ns /\ open_on s n e) /\ (NoDup ns -> NoDup l) /\
    l = flat_map (fun n => filter (edge_dangling s) (edges_at0 s n)) ns.
Proof. exact (@get_all_dangling_spec R s ns). Qed.
Print Assumptions C48_get_all_dangling.
Theorem C48_get_all_edges (R : csr) (iter : list nat -> list nat) (iter_perm : forall l, Permutation (iter l) l) (s : @st R) ns :
  (forall n, In n ns -> is_node s n) ->
  exists l, get_all_edges iter ns s = (s, Some l) /\ NoDup l /\ forall e, In e l <-> exists n, In n ns /\ on s n e.
Proof. exact (@get_all_edges_spec R iter iter_perm s ns). Qed.
Print Assumptions C48_get_all_edges.
Theorem C48_get_all_nodes (R : csr) (iter : list nat -> list nat) (iter_perm : forall l, Permutation (iter l) l) (s : @st R) es :
  wf s -> (forall e, In e es -> exists n, on s n e) ->
  exists l, get_all_nodes iter es s = (s, Some l) /\ NoDup l /\ forall n, In n l <-> exists e, In e es /\ on s n e.
Proof. exact (@get_all_nodes_spec R iter iter_perm s es). Qed.
Print Assumptions C48_get_all_nodes.
Theorem C48_get_subgraph_dangling (R : csr) (iter : list nat -> list nat) (iter_perm : forall l, Permutation (iter l) l) (s : @st R) ns :
  wf s -> (forall n, In n ns -> is_node s n) ->
  exists l, get_subgraph_dangling iter ns s = (s, Some l) /\ NoDup l /\
    forall e, In e l <-> exists n, In n ns /\ (open_on s n e \/ exists m, ~ In m ns /\ between s n m e).
Proof. exact (@get_subgraph_dangling_spec R iter iter_perm s ns). Qed.
Print Assumptions C48_get_subgraph_dangling.
Theorem C48_get_neighbors (R : csr) (s : @st R) n :
  wf s -> is_node s n ->
  exists l, get_neighbors n s = (s, Some l) /\ NoDup l /\ forall m, In m l <-> m <> n /\ exists e, between s n m e.
Proof. exact (@get_neighbors_spec R s n). Qed.
Print Assumptions C48_get_neighbors.

Example C48_example : wf ex_q /\ edges_at ex_q 0 = Some [9; 10; 11; 11] /\ edges_at ex_q 1 = Some [10; 9; 12] /\ edges_at ex_q 2 = Some [12; 8] /\
  snd (get_shared_edges rvl 1 0 ex_q) = Some [9; 10] /\ snd (get_shared_edges idl 0 0 ex_q) = Some [11] /\ snd (get_shared_edges idl 0 2 ex_q) = Some [] /\
  snd (get_parallel_edges idl 9 ex_q) = Some [9; 10] /\ snd (get_parallel_edges idl 8 ex_q) = Some [8] /\
  snd (get_all_nondangling idl [0; 2] ex_q) = Some [9; 10; 11; 12] /\ snd (get_all_dangling [4; 2; 0; 3] ex_q) = Some [16; 8; 13] /\
  snd (get_all_edges idl [1; 2] ex_q) = Some [10; 9; 12; 8] /\ snd (get_all_nodes idl [12; 11] ex_q) = Some [1; 2; 0] /\
  snd (get_subgraph_dangling idl [1; 2] ex_q) = Some [10; 9; 8] /\ snd (get_neighbors 1 ex_q) = Some [0; 2].
Proof. split; [exact ex_q_wf|]. repeat split; vm_compute; reflexivity. Qed.

(** C07: check_correct accepts every well-formed network *)
Theorem C07_check_correct (R : csr) (iter : list nat -> list nat) (s : @st R) ns :
  wf s -> (forall n, In n ns -> is_node s n) -> check_correct iter ns false s = (s, Some tt).
Proof. exact (@check_correct_ok R iter s ns). Qed.
Print Assumptions C07_check_correct.
Example C07_check_example : wf ex_q /\ check_correct idl [0; 1; 2; 3; 4] false ex_q = (ex_q, Some tt) /\
  check_correct idl [0; 1; 2] true ex_q = (ex_q, Some tt) /\ check_correct idl [0; 1; 2; 3; 4] true ex_q = (ex_q, None) /\
  (** an edge whose record does not point back is refused *)
  snd (check_correct idl [0] false (run (set_edge 9 (Edge 0 1 (Some (1, 1)) false)) ex_q)) = None.
Proof. split; [exact ex_q_wf|]. repeat split; vm_compute; reflexivity. Qed.

(** C03: contract_trace_edges contracts all trace edges of a node at once *)
Theorem C03_contract_trace_edges (R : csr) (iter : list nat -> list nat) (iter_perm : forall l, Permutation (iter l) l) n (s s' : @st R) N :
  wf s -> contract_trace_edges iter n s = (s', Some N) ->
  exists nd, s_nodes s n = Some nd /\
  ((N = n /\ s' = s /\ forall e, ~ between s n n e) \/
   (contracted s s' [n] N /\ (exists e, between s n n e) /\
    exists nd', s_nodes s' N = Some nd' /\ forall e, ~ between s' N N e /\ (on s' N e <-> on s n e /\ ~ between s n n e))).
Proof. exact (@contract_trace_edges_step R iter iter_perm n s s' N). Qed.
Print Assumptions C03_contract_trace_edges.
Definition ex_tt_ops : list (@op Z_csr) :=
  [OpNode (zt 1 [2; 3; 2; 3; 2]) None; OpConnect (0, 4) (0, 0); OpConnect (0, 1) (0, 3)].
Definition ex_tt : @st Z_csr := run (exec_ops idl ex_tt_ops) (@empty_st Z_csr).
Lemma ex_tt_wf : wf ex_tt.
Proof. apply (@exec_ops_wf Z_csr idl idl_perm ex_tt_ops (@empty_st Z_csr) ex_tt tt empty_wf); apply run_eq; vm_compute; reflexivity. Qed.
Example C03_trace_edges_example :
  let m := contract_trace_edges (R := Z_csr) rvl 0 in
  wf ex_tt /\ m ex_tt = (run m ex_tt, Some 1) /\ entries (run m ex_tt) 1 = Some ([2], [201; 237]%Z) /\
  contract_trace_edges (R := Z_csr) idl 1 ex_q = (ex_q, Some 1).
Proof. cbv zeta. split; [exact ex_tt_wf|]. split; [apply run_eq; vm_compute; reflexivity|]. split; vm_compute; reflexivity. Qed.

(** C04: outer_product_final_nodes is the outer product of all nodes, its axes in the requested order *)
Theorem C04_outer_product_final_nodes (R : csr) ns order (s s' : @st R) f :
  wf s -> NoDup ns -> outer_product_final_nodes ns order s = (s', Some f) ->
  wf s' /\ Permutation order (flat_map (edges_at0 s) ns) /\ NoDup order /\
  exists nd, s_nodes s' f = Some nd /\ n_edges nd = order /\ shape (n_t nd) = map (edim s) order /\
    forall a, (forall e, In e order -> a e < edim s e) -> elt (n_t nd) (map a order) = netprod (net_of s ns) a.
Proof. exact (@outer_final_step R ns order s s' f). Qed.
Print Assumptions C04_outer_product_final_nodes.
Definition ex_o_ops : list (@op Z_csr) := [OpNode (zt 1 [2]) None; OpNode (zt 1 [3]) None; OpNode (zt 0 [2; 2]) None].
Definition ex_o : @st Z_csr := run (exec_ops idl ex_o_ops) (@empty_st Z_csr).
Lemma ex_o_wf : wf ex_o.
Proof. apply (@exec_ops_wf Z_csr idl idl_perm ex_o_ops (@empty_st Z_csr) ex_o tt empty_wf); apply run_eq; vm_compute; reflexivity. Qed.
Example C04_final_example :
  let m := outer_product_final_nodes (R := Z_csr) [2; 0; 1] [3; 1; 0; 2] in
  wf ex_o /\ m ex_o = (run m ex_o, Some 4) /\ edges_at (run m ex_o) 4 = Some [3; 1; 0; 2] /\
  entries (run m ex_o) 4 = Some ([2; 3; 2; 2], [0; 2; 0; 4; 0; 4; 0; 8; 0; 6; 0; 12; 1; 3; 2; 6; 2; 6; 4; 12; 3; 9; 6; 18]%Z) /\
  snd (outer_product_final_nodes (R := Z_csr) [2; 0] [3; 1; 0; 2] ex_o) = None /\ snd (outer_product_final_nodes (R := Z_csr) [3; 4] [13; 16] ex_q) = None.
Proof. cbv zeta. split; [exact ex_o_wf|]. split; [apply run_eq; vm_compute; reflexivity|]. repeat split; vm_compute; reflexivity. Qed.

(** C05: flatten_edges_between flattens exactly the shared edges, and does nothing without any *)
Theorem C05_flatten_edges_between (R : csr) (iter : list nat -> list nat) (iter_perm : forall l, Permutation (iter l) l) n1 n2 (s s' : @st R) r :
  wf s -> flatten_edges_between iter n1 n2 s = (s', Some r) ->
  (r = None /\ s' = s /\ forall e, ~ between s n1 n2 e) \/
  (exists f es, r = Some f /\ es <> [] /\ NoDup es /\ (forall e, In e es <-> between s n1 n2 e) /\ flatten_edges iter es s = (s', Some f)).
Proof. exact (@flatten_between_step R iter iter_perm n1 n2 s s' r). Qed.
Print Assumptions C05_flatten_edges_between.
Example C05_between_example :
  let m := flatten_edges_between (R := Z_csr) idl 1 0 in
  wf ex_q /\ m ex_q = (run m ex_q, Some (Some 20)) /\ edges_at (run m ex_q) 0 = Some [11; 11; 20] /\ edges_at (run m ex_q) 1 = Some [12; 20] /\
  flatten_edges_between (R := Z_csr) idl 0 2 ex_q = (ex_q, Some None).
Proof. cbv zeta. split; [exact ex_q_wf|]. split; [apply run_eq; vm_compute; reflexivity|]. repeat split; vm_compute; reflexivity. Qed.
