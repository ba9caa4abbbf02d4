(** * Refuted claims about copy tensors (C21; DESIGN.md, Findings) *)
From Coq Require Import ZArith.
From Verif Require Import Prelude Algebra Tensor TensorFacts Einsum EinsumFacts NetworkFacts Graph GraphBase GraphContract GraphOps GraphValue GraphOuter GraphConnect GraphProg GraphSched GraphExamples GraphQuery GraphCopy GraphCopyFacts GraphQueryFacts GraphSlice CopyTensor CopyTensorSpec CopyTensorBucket R_Graph.
Set Implicit Arguments.
Unset Strict Implicit.

(** contract_copy_node does not give the used-up neighbours fresh edges, as the other contractions do: they go on
    listing edges of the new node, and the heap is not well-formed (network_components.py 856-867, 1908-1920). *)
Theorem C21_neighbour_edges_refuted : exists (s s' : @st Z_csr) c nc d N p e ed,
  reached s /\ s_nodes s c = Some nc /\ is_delta (n_t nc) d /\ contract_copy_node 52 c s = (s', Some N) /\
  slot s' p = Some e /\ s_edges s' e = Some ed /\ ~ In p (ends ed) /\ In (N, 0) (ends ed) /\ ~ wf s'.
Proof.
  set (s := build [OpNode (copy_tensor 2 2) None; OpNode mat None; OpNode vec None; OpConnect (0, 0) (1, 0); OpConnect (0, 1) (2, 0)]).
  exists s, (run (contract_copy_node 52 0) s), 0. do 1 eexists. exists 2, 3, (1, 1), 3. eexists.
  split; [apply build_reached; vm_compute; reflexivity|]. split; [vm_compute; reflexivity|]. split; [apply (copy_tensor_delta (R := Z_csr) 2 2)|].
  split; [apply run_eq; vm_compute; reflexivity|]. split; [vm_compute; reflexivity|]. split; [vm_compute; reflexivity|].
  assert (~ In (1, 1) [(3, 0)]) as Q by (intros [F|[]]; discriminate). split; [exact Q|]. split; [left; reflexivity|].
  eapply (@not_wf_slot _ (1, 1) 3); [vm_compute; reflexivity | vm_compute; reflexivity | exact Q].
Qed.

(** A copy tensor all of whose edges are trace edges has a value (here 2), but contract_copy_node raises: there is
    nothing to hand to einsum (network_components.py 888-908). *)
Theorem C21_trace_only_refuted : exists (s : @st Z_csr) c nc d,
  reached s /\ s_nodes s c = Some nc /\ is_delta (n_t nc) d /\ 0 < d /\ (forall e ed, on s c e -> s_edges s e = Some ed -> e_2 ed <> None) /\
  netval s [c] (fun _ => 0) = 2%Z /\ forall letters, snd (contract_copy_node letters c s) = None.
Proof.
  set (s := build [OpNode (copy_tensor 2 2) None; OpConnect (0, 0) (0, 1)]).
  exists s, 0. eexists. exists 2.
  split; [apply build_reached; vm_compute; reflexivity|]. split; [vm_compute; reflexivity|]. split; [apply (copy_tensor_delta (R := Z_csr) 2 2)|]. split; [lia|]. split.
  { intros e ed (k & K) He. assert (e = 2) as ->. { unfold slot in K. destruct k as [|[|[|k]]]; vm_compute in K; congruence. } vm_compute in He. injection He as <-. discriminate. }
  split; [vm_compute; reflexivity|]. intros l. vm_compute. reflexivity.
Qed.

(** The bucket contractor on two adjacent copy tensors: the first contraction uses up the second one as a
    neighbour, and the second contraction then raises, although every single node is still there and contracting either of them alone succeeds
    (bucket_contractor.py 51-57). *)
Theorem C21_bucket_adjacent_refuted : exists (s : @st Z_csr) nodes c c',
  reached s /\ (forall k, In k [c; c'] -> exists nc, s_nodes s k = Some nc /\ is_delta (n_t nc) 2) /\
  (forall n, In n nodes <-> s_nodes s n <> None) /\ In c nodes /\ In c' nodes /\
  (exists s1 n1, bucket 52 nodes [c] s = (s1, Some n1)) /\ (exists s1 n1, bucket 52 nodes [c'] s = (s1, Some n1)) /\
  snd (bucket 52 nodes [c; c'] s) = None.
Proof.
  set (s := build [OpNode vec None; OpNode (copy_tensor 2 2) None; OpNode (copy_tensor 2 2) None; OpNode vec None; OpConnect (0, 0) (1, 0); OpConnect (1, 1) (2, 0); OpConnect (2, 1) (3, 0)]).
  exists s, [0; 1; 2; 3], 1, 2.
  split; [apply build_reached; vm_compute; reflexivity|]. split.
  { intros k [<-|[<-|[]]]; eexists; (split; [vm_compute; reflexivity|]); apply (copy_tensor_delta (R := Z_csr) 2 2). }
  split.
  { intros n. split; [intros [<-|[<-|[<-|[<-|[]]]]]; vm_compute; discriminate|]. intros H. destruct n as [|[|[|[|n]]]]; cbn; auto 6. }
  split; [cbn; auto|]. split; [cbn; auto|].
  split; [do 2 eexists; apply run_eq; vm_compute; reflexivity|]. split; [do 2 eexists; apply run_eq; vm_compute; reflexivity|]. vm_compute. reflexivity.
Qed.
Print Assumptions C21_neighbour_edges_refuted.
Print Assumptions C21_trace_only_refuted.
Print Assumptions C21_bucket_adjacent_refuted.
