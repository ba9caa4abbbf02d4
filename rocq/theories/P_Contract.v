(** * Properties C01-C04: contractions *)
From Coq Require Import ZArith.
From Verif Require Import Prelude Algebra Tensor TensorFacts Einsum EinsumFacts NetworkFacts Graph GraphBase GraphContract GraphOps GraphValue GraphOuter GraphConnect GraphBetween GraphTrace GraphProg GraphSched GraphExamples.
Set Implicit Arguments.
Unset Strict Implicit.

(** C01: contract_between.  [netval s S a] is the Einstein sum of the nodes S (Einsum.v [value]): repeated
    edges summed, the dangling edges of the subnetwork fixed by [a]. [contracted] unfolds to: the new
    state is well-formed, N is a new node, every node other than the operands is untouched, and for
    every set S of further nodes the value of operands ++ S equals the value of N :: S. *)
Theorem C01_contract_between (R : csr) (iter : list nat -> list nat) (iter_perm : forall l, Permutation (iter l) l)
    n1 n2 ao order names (s s' : @st R) N :
  wf s -> n1 <> n2 -> contract_between iter n1 n2 ao order names s = (s', Some N) ->
  contracted s s' [n1; n2] N /\
  exists d1 d2 nd', s_nodes s n1 = Some d1 /\ s_nodes s n2 = Some d2 /\ s_nodes s' N = Some nd' /\
    Permutation (n_edges nd') (kept_of (shared_list s n1 n2) (n_edges d1) ++ kept_of (shared_list s n1 n2) (n_edges d2)) /\
    (order = [] -> n_edges nd' = kept_of (shared_list s n1 n2) (n_edges d1) ++ kept_of (shared_list s n1 n2) (n_edges d2)) /\
    (order <> [] -> n_edges nd' = order) /\
    (forall l, names = Some l -> n_names nd' = l).
Proof. intros W Hne H. exact (between_step iter_perm W Hne H). Qed.
Print Assumptions C01_contract_between.

Theorem C01_contract_edge (R : csr) e ed m2 a2 names (s s' : @st R) N :
  wf s -> (exists p, slot s p = Some e) -> s_edges s e = Some ed -> e_2 ed = Some (m2, a2) -> e_n1 ed <> m2 ->
  contract e names s = (s', Some N) ->
  contracted s s' [e_n1 ed; m2] N /\
  exists d1 d2 nms, s_nodes s (e_n1 ed) = Some d1 /\ s_nodes s m2 = Some d2 /\
    s_nodes s' N = Some (Node (tensordot (n_t d1) (n_t d2) [e_a1 ed] [a2]) (kept_of [e] (n_edges d1) ++ kept_of [e] (n_edges d2)) nms).
Proof. exact (@contract_pair R e ed m2 a2 names s s' N). Qed.
Print Assumptions C01_contract_edge.

Theorem C01_contract_parallel (R : csr) (iter : list nat -> list nat) (iter_perm : forall l, Permutation (iter l) l) e (s s' : @st R) N :
  wf s -> (exists p, slot s p = Some e) -> contract_parallel iter e s = (s', Some N) ->
  exists ed q, s_edges s e = Some ed /\ e_2 ed = Some q /\
    contracted s s' (nodup Nat.eq_dec [e_n1 ed; fst q]) N /\
    exists nd', s_nodes s' N = Some nd' /\
      n_edges nd' = flat_map (fun n => match s_nodes s n with Some nd => kept_of (shared_list s (e_n1 ed) (fst q)) (n_edges nd) | None => [] end)
                             (nodup Nat.eq_dec [e_n1 ed; fst q]).
Proof. intros W L H. exact (parallel_step iter_perm W L H). Qed.
Print Assumptions C01_contract_parallel.

(** nodes 0 and 1 of the example share two edges in crossed axis positions *)
Example C01_example :
  let m' := contract_between (R := Z_csr) idl 0 1 false [] None in
  wf ex_s /\ m' ex_s = (run m' ex_s, Some 3) /\
  edges_at ex_s 0 = Some [9; 10; 11; 11] /\ edges_at ex_s 1 = Some [10; 9; 12] /\ edges_at (run m' ex_s) 3 = Some [11; 11; 12] /\
  entries (run m' ex_s) 3 = Some ([2; 2; 2], [232; 298; 244; 316; 256; 334; 268; 352]%Z) /\
  netval ex_s [0; 1; 2] (fun _ => 1) = 4750%Z /\ netval (run m' ex_s) [3; 2] (fun _ => 1) = 4750%Z.
Proof. cbv zeta. split; [exact ex_wf|]. split; [apply run_eq; vm_compute; reflexivity|]. repeat split; vm_compute; reflexivity. Qed.

(** C02: any two schedules that contract the network S to a single node without remaining trace
    edges give the same tensor up to the order of its axes, namely the Einstein sum. *)
Theorem C02_schedule_value (R : csr) (iter : list nat -> list nat) (iter_perm : forall l, Permutation (iter l) l)
    l S (s s' : @st R) N nd a :
  wf s -> network s S -> schedule iter l S s = (s', Some [N]) -> s_nodes s' N = Some nd -> NoDup (n_edges nd) -> open_ok s S a ->
  elt (n_t nd) (map a (n_edges nd)) = netval s S a /\ shape (n_t nd) = map (edim s) (n_edges nd) /\
  (forall x, In x (n_edges nd) <-> count_occ Nat.eq_dec (net_labels (net_of s S)) x = 1).
Proof. exact (@schedule_value R iter iter_perm l S s s' N nd a). Qed.
Print Assumptions C02_schedule_value.

Theorem C02_schedule_independence (R : csr) (iter : list nat -> list nat) (iter_perm : forall l, Permutation (iter l) l)
    l1 l2 S (s s1 s2 : @st R) N1 N2 d1 d2 :
  wf s -> network s S ->
  schedule iter l1 S s = (s1, Some [N1]) -> schedule iter l2 S s = (s2, Some [N2]) ->
  s_nodes s1 N1 = Some d1 -> s_nodes s2 N2 = Some d2 -> NoDup (n_edges d1) -> NoDup (n_edges d2) ->
  Permutation (n_edges d1) (n_edges d2) /\
  forall a, valid (map a (n_edges d1)) (shape (n_t d1)) ->
    elt (n_t d1) (map a (n_edges d1)) = elt (n_t d2) (map a (n_edges d2)).
Proof. exact (@schedule_agree R iter iter_perm l1 l2 S s s1 s2 N1 N2 d1 d2). Qed.
Print Assumptions C02_schedule_independence.

Definition ex_path1 : list cop := [CBetween 0 1 false [] None; CEdge (3, 0) None; CBetween 4 2 false [] None].
Definition ex_path2 : list cop := [CBetween 2 1 false [] None; CParallel (0, 2); CParallel (3, 2)].
Example C02_example :
  let m1 := schedule (R := Z_csr) idl ex_path1 [0; 1; 2] in let m2 := schedule (R := Z_csr) idl ex_path2 [0; 1; 2] in
  wf ex_s /\ network ex_s [0; 1; 2] /\
  m1 ex_s = (run m1 ex_s, Some [5]) /\ m2 ex_s = (run m2 ex_s, Some [5]) /\
  edges_at (run m1 ex_s) 5 = Some [8] /\ edges_at (run m2 ex_s) 5 = Some [8] /\
  entries (run m1 ex_s) 5 = Some ([2], [3600; 4750]%Z) /\ entries (run m2 ex_s) 5 = Some ([2], [3600; 4750]%Z).
Proof.
  cbv zeta. split; [exact ex_wf|]. split; [exact ex_net|]. split; [apply run_eq; vm_compute; reflexivity|].
  split; [apply run_eq; vm_compute; reflexivity|]. repeat split; vm_compute; reflexivity.
Qed.

(** C03: contract on a trace edge; contract_between(n, n) on all trace edges of n *)
Theorem C03_trace_edge (R : csr) e ed a2 (s s' : @st R) N :
  wf s -> (exists p, slot s p = Some e) -> s_edges s e = Some ed -> e_2 ed = Some (e_n1 ed, a2) ->
  contract_trace e s = (s', Some N) ->
  contracted s s' [e_n1 ed] N /\
  exists nd nd', s_nodes s (e_n1 ed) = Some nd /\ s_nodes s' N = Some nd' /\ n_edges nd' = kept_of [e] (n_edges nd).
Proof. intros W L E E2 H. exact (trace_step W L E eq_refl E2 H). Qed.
Print Assumptions C03_trace_edge.

(** the tensor is the partial trace over the two axes, the smaller one first *)
Theorem C03_trace_tensor (R : csr) e ed a2 (s s' : @st R) N :
  wf s -> (exists p, slot s p = Some e) -> s_edges s e = Some ed -> e_2 ed = Some (e_n1 ed, a2) ->
  contract_trace e s = (s', Some N) ->
  contracted s s' [e_n1 ed] N /\
  exists nd nms, s_nodes s (e_n1 ed) = Some nd /\
    let x := Nat.min (e_a1 ed) a2 in let y := Nat.max (e_a1 ed) a2 in let r := rank (n_t nd) in
    s_nodes s' N = Some (Node (trace2 (transpose (n_t nd) (free_axes r [x; y] ++ [x; y])) (r - 2) (r - 1))
                              (free_labels 0 (n_edges nd) [x; y]) nms).
Proof. exact (@contract_trace_step R e ed a2 s s' N). Qed.
Print Assumptions C03_trace_tensor.

Theorem C03_all_traces (R : csr) (iter : list nat -> list nat) (iter_perm : forall l, Permutation (iter l) l)
    n ao order names (s s' : @st R) N :
  wf s -> contract_between iter n n ao order names s = (s', Some N) ->
  contracted s s' [n] N /\
  exists d nd', s_nodes s n = Some d /\ s_nodes s' N = Some nd' /\ shared_list s n n <> [] /\
    Permutation (n_edges nd') (kept_of (shared_list s n n) (n_edges d)) /\
    (order = [] -> n_edges nd' = kept_of (shared_list s n n) (n_edges d)) /\
    (order <> [] -> n_edges nd' = order) /\
    (forall l, names = Some l -> n_names nd' = l).
Proof. intros W H. exact (between_self iter_perm W H). Qed.
Print Assumptions C03_all_traces.

Definition ex_tr_ops : list (@op Z_csr) :=
  [OpNode (zt 1 [2; 3; 2; 3; 2]) None; OpConnect (0, 4) (0, 0); OpConnect (0, 1) (0, 3)].
Definition ex_tr : @st Z_csr := run (exec_ops idl ex_tr_ops) (@empty_st Z_csr).
Example C03_example :
  let m := contract_between (R := Z_csr) rvl 0 0 false [] None in let m1 := bind (edge_of 0 0) (@contract_trace Z_csr) in
  wf ex_tr /\ edges_at ex_tr 0 = Some [5; 6; 2; 6; 5] /\
  m ex_tr = (run m ex_tr, Some 1) /\ entries (run m ex_tr) 1 = Some ([2], [201; 237]%Z) /\
  m1 ex_tr = (run m1 ex_tr, Some 1) /\ edges_at (run m1 ex_tr) 1 = Some [6; 2; 6].
Proof.
  cbv zeta. split; [apply (@exec_ops_wf Z_csr idl idl_perm ex_tr_ops (@empty_st Z_csr) ex_tr tt empty_wf); apply run_eq; vm_compute; reflexivity|].
  split; [vm_compute; reflexivity|]. split; [apply run_eq; vm_compute; reflexivity|]. split; [vm_compute; reflexivity|].
  split; [apply run_eq; vm_compute; reflexivity|]. vm_compute. reflexivity.
Qed.

(** C04 *)
Theorem C04_outer_product (R : csr) n1 n2 names (s s' : @st R) N :
  wf s -> n1 <> n2 -> outer_product n1 n2 names s = (s', Some N) ->
  contracted s s' [n1; n2] N /\
  exists d1 d2 nms, s_nodes s n1 = Some d1 /\ s_nodes s n2 = Some d2 /\
    s_nodes s' N = Some (Node (outer (n_t d1) (n_t d2)) (n_edges d1 ++ n_edges d2) nms).
Proof. exact (@outer_step R n1 n2 names s s' N). Qed.
Print Assumptions C04_outer_product.

(** an outer product of two nodes that share an edge turns it into a trace edge *)
Example C04_example :
  let m := outer_product (R := Z_csr) 2 1 None in
  wf ex_s /\ m ex_s = (run m ex_s, Some 3) /\ edges_at (run m ex_s) 3 = Some [12; 8; 10; 9; 12] /\
  netval (run m ex_s) [3; 0] (fun _ => 1) = 4750%Z.
Proof. cbv zeta. split; [exact ex_wf|]. split; [apply run_eq; vm_compute; reflexivity|]. split; vm_compute; reflexivity. Qed.
