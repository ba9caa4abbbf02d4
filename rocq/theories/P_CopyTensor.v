(** * Property C21: copy tensors *)
From Coq Require Import ZArith.
From Verif Require Import Prelude Algebra Tensor TensorFacts Einsum EinsumFacts NetworkFacts Graph GraphBase GraphContract GraphOps GraphValue GraphOuter GraphConnect GraphProg GraphSched GraphQuery GraphQueryFacts GraphExamples CopyTensor CopyTensorSpec CopyTensorBucket CopyTensorMain.
Set Implicit Arguments.
Unset Strict Implicit.

(** the tensor of a CopyNode *)
Theorem C21_tensor (R : csr) (r d : nat) (ix : list nat) :
  shape (copy_tensor (R := R) r d) = repeat d r /\
  (valid ix (repeat d r) ->
   ((forall x y, In x ix -> In y ix -> x = y) -> elt (copy_tensor (R := R) r d) ix = r1) /\
   (~ (forall x y, In x ix -> In y ix -> x = y) -> elt (copy_tensor (R := R) r d) ix = r0)).
Proof. exact (@copy_tensor_entries R r d ix). Qed.
Print Assumptions C21_tensor.
Example C21_tensor_ex : map (elt (copy_tensor (R := Z_csr) 3 2)) (idxs [2; 2; 2]) = [1; 0; 0; 0; 0; 0; 0; 1]%Z.
Proof. reflexivity. Qed.

(** contract_copy_node on any copy tensor (any rank, with trace edges or several edges to one neighbour): the new
    node has the remaining edges of the neighbours, and every network with the copy tensor and its neighbours keeps
    its value, the copy tensor counting with its explicit entries.  [forget PS s'] is the heap without the used-up
    neighbours. *)
Theorem C21_contract (R : csr) letters (s s' : @st R) c nc d N :
  wf s -> s_nodes s c = Some nc -> is_delta (n_t nc) d -> contract_copy_node letters c s = (s', Some N) ->
  exists PS, neighbours s c PS /\ wf (forget PS s') /\ s_nodes s N = None /\
    (exists nd, s_nodes s' N = Some nd /\ forall e, In e (n_edges nd) <-> ~ on s c e /\ exists n, In n PS /\ on s n e) /\
    (forall e, on s' c e -> exists ed, s_edges s' e = Some ed /\ e_2 ed = None) /\
    (forall m, m <> c -> m <> N -> s_nodes s' m = s_nodes s m) /\
    forall S a, NoDup (c :: PS ++ S) -> ~ In N S -> netval s (c :: PS ++ S) a = netval (forget PS s') (N :: S) a.
Proof. exact (@contract_copy_meaning R letters s s' c nc d N). Qed.
Print Assumptions C21_contract.

(** with enough einsum letters the call succeeds exactly when no edge of the copy tensor dangles and one of them
    leads to another node *)
Theorem C21_succeeds (R : csr) letters (s : @st R) c nc d :
  wf s -> s_nodes s c = Some nc -> is_delta (n_t nc) d -> length (n_names nc) = rank (n_t nc) ->
  (forall PS, neighbours s c PS -> length (filter (fun e => negb (mem e (n_edges nc))) (flat_map (edges_at0 s) PS)) < letters) ->
  ((exists s' N, contract_copy_node letters c s = (s', Some N)) <->
   (forall e ed, on s c e -> s_edges s e = Some ed -> e_2 ed <> None) /\ exists e n, on s c e /\ on s n e /\ n <> c).
Proof. exact (@contract_copy_iff R letters s c nc d). Qed.
Print Assumptions C21_succeeds.

(** the bucket contractor: any sequence of pairwise non-adjacent copy tensors *)
Theorem C21_bucket (R : csr) letters (s s' : @st R) nodes order nodes' :
  wf s -> NoDup nodes -> (forall n, In n nodes -> s_nodes s n <> None) -> NoDup order -> incl order nodes ->
  (forall c, In c order -> exists nc d, s_nodes s c = Some nc /\ is_delta (n_t nc) d) ->
  (forall c c' e, In c order -> In c' order -> on s c e -> on s c' e -> c = c') ->
  (forall c e n, In c order -> on s c e -> on s n e -> In n nodes) ->
  bucket letters nodes order s = (s', Some nodes') ->
  exists D, wf (forget D s') /\ NoDup nodes' /\ (forall n, In n nodes' -> s_nodes (forget D s') n <> None) /\
    (forall n, In n nodes' -> In n nodes \/ s_nn s <= n < s_nn s') /\ (forall c, In c order -> ~ In c nodes') /\
    forall a, netval s nodes a = netval (forget D s') nodes' a.
Proof. exact (@bucket_meaning R letters s s' nodes order nodes'). Qed.
Print Assumptions C21_bucket.

(** Node 0: copy tensor of rank 5 and dimension 2 with a trace edge; node 1: 2x3x2, two edges to node 0;
    node 2: 2x2, one edge to node 0; node 3: copy tensor of rank 2 and dimension 2 between nodes 2 and 4;
    node 4: 2x3 joined to node 1. *)
Definition ct_ops : list (@op Z_csr) :=
  [OpNode (copy_tensor 5 2) None; OpNode (zt 1 [2; 3; 2]) None; OpNode (zt (-2) [2; 2]) None; OpNode (copy_tensor 2 2) None; OpNode (zt 3 [2; 3]) None;
   OpConnect (0, 0) (1, 2); OpConnect (0, 1) (0, 3); OpConnect (2, 0) (0, 2); OpConnect (1, 0) (0, 4);
   OpConnect (2, 1) (3, 0); OpConnect (3, 1) (4, 0); OpConnect (1, 1) (4, 1)].
Definition ct_s : @st Z_csr := run (exec_ops idl ct_ops) (@empty_st Z_csr).
Lemma ct_wf : wf ct_s.
Proof.
  apply (@exec_ops_wf Z_csr idl idl_perm ct_ops (@empty_st Z_csr) ct_s tt empty_wf). apply run_eq. vm_compute. reflexivity.
Qed.
Example C21_contract_ex : exists s' N nc, s_nodes ct_s 0 = Some nc /\ is_delta (n_t nc) 2 /\ contract_copy_node 52 0 ct_s = (s', Some N) /\
  entries s' N = Some ([3; 2], [-2; 7; -6; 7; -10; 7]%Z).
Proof.
  exists (run (contract_copy_node 52 0) ct_s), 5, (Node (copy_tensor 5 2) (match s_nodes ct_s 0 with Some nd => n_edges nd | None => [] end) (seq 0 5)).
  split; [vm_compute; reflexivity|]. split; [apply copy_tensor_delta|]. split; [apply run_eq; vm_compute; reflexivity | vm_compute; reflexivity].
Qed.
(** (the edge between nodes 1 and 4 ends as a trace edge of the last node) *)
Example C21_bucket_ex : exists s', bucket 52 [0; 1; 2; 3; 4] [0; 3] ct_s = (s', Some [6]) /\ entries s' 6 = Some ([3; 3], [36; 41; 46; 24; 25; 26; 12; 9; 6]%Z).
Proof. eexists. split; [apply run_eq; vm_compute; reflexivity | vm_compute; reflexivity]. Qed.
