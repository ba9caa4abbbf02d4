(** * Properties C01, C03, C04, C05, C08: the calls of the earlier theorems do succeed *)
From Coq Require Import ZArith.
From Verif Require Import Prelude Algebra Tensor TensorFacts Einsum EinsumFacts NetworkFacts Graph GraphBase GraphContract GraphOps GraphValue GraphOuter GraphConnect GraphBetween GraphTrace GraphProg GraphSched GraphExamples GraphTotal GraphNames GraphTotal2.
Set Implicit Arguments.
Unset Strict Implicit.

(** [nameable s n]: the node has a name for every axis.  [names_fit names k]: the axis names passed
    in, if any, are k different names.  [rest_of s n1 n2]: the edges of n1 and n2 that do not run
    between them, in order. [order_ok]: no output_edge_order, or these edges without repetition. *)
Theorem C01_contract_between_total (R : csr) (iter : list nat -> list nat) (iter_perm : forall l, Permutation (iter l) l)
    n1 n2 ao order names (s : @st R) d1 d2 :
  wf s -> s_nodes s n1 = Some d1 -> s_nodes s n2 = Some d2 -> nameable s n1 -> nameable s n2 ->
  (shared_list s n1 n2 = [] -> n1 <> n2 /\ ao = true) ->
  order_ok order (rest_of s n1 n2) -> names_fit names (length (rest_of s n1 n2)) ->
  exists s' N, contract_between iter n1 n2 ao order names s = (s', Some N) /\ (forall n, nameable s n -> nameable s' n).
Proof.
  intros W H1 H2 N1 N2 Hs Ho Hf. destruct (between_ok iter_perm W H1 H2 N1 N2 Hs Ho Hf) as (s' & N & H).
  exists s', N. split; [exact H|]. intros n Hn. exact (between_nameable W Hn H).
Qed.
Print Assumptions C01_contract_between_total.

Theorem C01_contract_edge_total (R : csr) e p ed names (s : @st R) :
  wf s -> slot s p = Some e -> s_edges s e = Some ed -> e_2 ed <> None -> (forall n, In n (map fst (ends ed)) -> nameable s n) ->
  (forall q, e_2 ed = Some q -> e_n1 ed <> fst q -> forall d1 d2, s_nodes s (e_n1 ed) = Some d1 -> s_nodes s (fst q) = Some d2 ->
     names_fit names (length (kept_of [e] (n_edges d1)) + length (kept_of [e] (n_edges d2)))) ->
  exists s' N, contract e names s = (s', Some N).
Proof. exact (@contract_ok R e p ed names s). Qed.
Print Assumptions C01_contract_edge_total.

Theorem C01_contract_parallel_total (R : csr) (iter : list nat -> list nat) (iter_perm : forall l, Permutation (iter l) l) e p ed (s : @st R) :
  wf s -> slot s p = Some e -> s_edges s e = Some ed -> e_2 ed <> None -> (forall n, In n (map fst (ends ed)) -> nameable s n) ->
  exists s' N, contract_parallel iter e s = (s', Some N).
Proof. exact (@parallel_ok R iter iter_perm e p ed s). Qed.
Print Assumptions C01_contract_parallel_total.

(** C03: contract on a trace edge *)
Theorem C03_trace_edge_total (R : csr) e p ed a2 (s : @st R) :
  wf s -> slot s p = Some e -> s_edges s e = Some ed -> e_2 ed = Some (e_n1 ed, a2) -> nameable s (e_n1 ed) ->
  exists s' N, contract_trace e s = (s', Some N).
Proof. intros W Hs E E2 Nm. exact (@trace_ok R e ed (e_n1 ed) a2 s W (ex_intro _ p Hs) E eq_refl E2 Nm). Qed.
Print Assumptions C03_trace_edge_total.

(** C04 *)
Theorem C04_outer_product_total (R : csr) n1 n2 names (s : @st R) d1 d2 :
  wf s -> n1 <> n2 -> s_nodes s n1 = Some d1 -> s_nodes s n2 = Some d2 -> names_fit names (rank (n_t d1) + rank (n_t d2)) ->
  nameable s n1 -> nameable s n2 ->
  exists s' N, outer_product n1 n2 names s = (s', Some N).
Proof. exact (@outer_ok R n1 n2 names s d1 d2). Qed.
Print Assumptions C04_outer_product_total.

(** C05: [q = None]: the edges all dangle from p; [q = Some v]: they all run between p and v (v = p for
    trace edges) *)
Theorem C05_flatten_edges_total (R : csr) (iter : list nat -> list nat) (iter_perm : forall l, Permutation (iter l) l) p q es (s : @st R) :
  wf s -> es <> [] -> NoDup es ->
  (forall c, In c es -> (exists x, slot s x = Some c) /\ exists ed, s_edges s c = Some ed /\ e_dis ed = false /\ edge_set_is ed p q = true) ->
  nameable s p -> (forall v, q = Some v -> nameable s v) ->
  exists s' f, flatten_edges iter es s = (s', Some f).
Proof. exact (@flatten_edges_ok R iter iter_perm p q es s). Qed.
Print Assumptions C05_flatten_edges_total.

(** C08 *)
Theorem C08_reorder_edges_total (R : csr) n nd order (s : @st R) :
  wf s -> s_nodes s n = Some nd -> NoDup (n_edges nd) -> Permutation order (n_edges nd) -> nameable s n ->
  exists s' x, reorder_edges n order s = (s', Some x).
Proof. exact (@reorder_edges_ok R n nd order s). Qed.
Print Assumptions C08_reorder_edges_total.

Theorem C08_reorder_axes_total (R : csr) n nd perm (s : @st R) :
  wf s -> s_nodes s n = Some nd -> is_perm (length (n_edges nd)) perm -> nameable s n ->
  exists s' x, reorder_axes n perm s = (s', Some x).
Proof. exact (@reorder_axes_ok R (fun _ => False) n nd perm s). Qed.
Print Assumptions C08_reorder_axes_total.

(** the example network of GraphExamples.v meets the hypotheses *)
Lemma nameableb (s : @st Z_csr) n :
  match s_nodes s n with Some nd => Nat.leb (length (n_edges nd)) (length (n_names nd)) | None => true end = true -> nameable s n.
Proof. intros H nd E. rewrite E in H. apply Nat.leb_le. exact H. Qed.

Example C01_total_example : nameable ex_s 0 /\ nameable ex_s 1 /\ shared_list ex_s 0 1 = [9; 10] /\ rest_of ex_s 0 1 = [11; 11; 12] /\
  rest_of ex_s 1 2 = [10; 9; 8] /\ order_ok [8; 10; 9] (rest_of ex_s 1 2) /\ names_fit (Some [7; 1; 3]) (length (rest_of ex_s 1 2)) /\
  snd (contract_between (R := Z_csr) rvl 1 2 true [8; 10; 9] (Some [7; 1; 3]) ex_s) = Some 3.
Proof.
  split; [apply nameableb; vm_compute; reflexivity|]. split; [apply nameableb; vm_compute; reflexivity|]. split; [vm_compute; reflexivity|]. split; [vm_compute; reflexivity|].
  assert (rest_of ex_s 1 2 = [10; 9; 8]) as E by (vm_compute; reflexivity). split; [exact E|]. rewrite E.
  split; [right; split; [repeat constructor; cbn; intuition congruence|apply (Permutation_middle [10; 9] [] 8)]|].
  split; [split; [repeat constructor; cbn; intuition congruence|reflexivity]|]. vm_compute. reflexivity.
Qed.
