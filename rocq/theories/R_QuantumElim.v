(** * Refutations about the elimination of identities (quantum.py) *)
From Coq Require Import ZArith.
From Verif Require Import Prelude Algebra Tensor TensorFacts Einsum EinsumFacts NetworkFacts Graph GraphBase GraphContract GraphOps GraphValue GraphOuter GraphConnect GraphProg GraphSched GraphQuery GraphQueryFacts GraphCopy GraphCopyFacts GraphDensity GraphExamples P_Copy P_Path CopyTensor PathContract PathFacts Quantum QuantumSpec QuantumFacts QuantumNodes QuantumElim QuantumElimSpec QuantumExamples QuantumElimExamples.
Set Implicit Arguments.
Unset Strict Implicit.

Definition el_id (d : nat) : @op G_cjr := OpNode (copy_tensor 2 d) None.
Definition el_A : @op G_cjr := OpNode (gt 2 [2; 2]) None.
Definition el_run (l : list (@op G_cjr)) : @st G_cjr := fst (exec_ops idl l (@empty_st G_cjr)).
Lemma el_wf l : snd (exec_ops idl l (@empty_st G_cjr)) = Some tt -> wf (el_run l).
Proof. intros H. apply (@exec_ops_wf G_cjr idl idl_perm l (@empty_st G_cjr) (el_run l) tt empty_wf). unfold el_run. rewrite <- H. apply surjective_pairing. Qed.
Lemma rev_perm (l : list nat) : Permutation (rev l) l.
Proof. symmetry. apply Permutation_rev. Qed.

(** Two identities in a row before a matrix.  When eliminate_identities meets the outer one first, the dictionary of
    the loose ends keeps an edge that the removal of the inner one replaces (quantum.py 131-141), and contract raises
    in check_network; in the other order all is well.  The order is that of a Python set. *)
Definition el_chain : @st G_cjr := el_run [el_id 2; el_id 2; el_A; OpConnect (0, 1) (1, 0); OpConnect (1, 1) (2, 0)].
Lemma el_chain_wf : wf el_chain.
Proof. apply el_wf. vm_compute. reflexivity. Qed.
Theorem C40_chain_of_identities_refuted :
  exists (s : @st G_cjr) q (iter1 iter2 : list nat -> list nat), wf s /\ oper s q [0; 1; 2] /\ copies s q /\ linked s q [0; 1; 2] /\
    (forall l, Permutation (iter1 l) l) /\ (forall l, Permutation (iter2 l) l) /\ algorithm_ok first_two /\
    snd (eval iter1 first_two q [] s) = None /\
    out_of (eval iter2 first_two q []) s = Some ([2; 2], [(2, -1); (3, 1); (4, 3); (5, 5)]%Z).
Proof.
  exists el_chain, (Qu [0] [5] [] [] [0; 1]), idl, (@rev nat). split; [apply el_chain_wf|]. split; [|split; [|split; [|split; [exact idl_perm|split; [exact rev_perm|split; [exact first_two_ok|split; [vm_compute; reflexivity|vm_compute; reflexivity]]]]]]].
  - apply accepted_at; [apply el_chain_wf| |cbn; repeat constructor; cbn; intuition lia|vm_compute; reflexivity..].
    intros n _. apply namedb_spec. do 3 (destruct n as [|n]; [vm_compute; reflexivity|]). vm_compute. reflexivity.
  - apply copiesb_spec. vm_compute. reflexivity.
  - intros m [<-|[<-|[<-|[]]]]; right.
    + exists 0, 0. split; [cbn; auto|]. split; [apply (@on_at _ 0 0); vm_compute; reflexivity|constructor].
    + exists 0, 0. split; [cbn; auto|]. split; [apply (@on_at _ 0 0); vm_compute; reflexivity|]. apply (conn_step (m := 0) (e := 6)); [constructor|apply (@on_at _ 0 1); vm_compute; reflexivity|apply (@on_at _ 1 0); vm_compute; reflexivity].
    + exists 5, 2. split; [cbn; auto|]. split; [apply (@on_at _ 2 1); vm_compute; reflexivity|constructor].
Qed.
Print Assumptions C40_chain_of_identities_refuted.
(** the same from the public operations alone: (I @ I) @ I *)
Definition el_iii (iter : list nat -> list nat) : @M G_cjr (tensor G_cjr) :=
  bind (identity iter [2]) (fun a => bind (identity iter [2]) (fun b => bind (matmul iter a b) (fun ab => bind (identity iter [2]) (fun c => bind (matmul iter ab c) (fun q => eval iter first_two q []))))).
Theorem C40_product_of_three_identities_refuted :
  exists iter1 iter2 : list nat -> list nat, (forall l, Permutation (iter1 l) l) /\ (forall l, Permutation (iter2 l) l) /\
    snd (el_iii iter1 (@empty_st G_cjr)) = None /\ snd (el_iii iter2 (@empty_st G_cjr)) <> None.
Proof.
  exists (@rev nat), idl. split; [exact rev_perm|]. split; [exact idl_perm|]. split; [vm_compute; reflexivity|vm_compute; discriminate].
Qed.
Print Assumptions C40_product_of_three_identities_refuted.

(** ref_nodes is documented as nodes used to refer to parts of the network that are not connected to any input or output
    edges, for example a scalar factor.  When the reference to such a part is an identity that gets removed, the part
    is silently dropped (quantum.py 449-450) and eval returns a wrong matrix.
    A loop of two identities of dimension 3, referred to by one of them: in one order the factor 3 is lost, in the other
    it is not. *)
Definition el_loop : @st G_cjr := el_run [el_id 3; el_id 3; el_A; OpConnect (0, 0) (1, 0); OpConnect (0, 1) (1, 1)].
Theorem C40_scalar_loop_refuted :
  exists (s : @st G_cjr) q (iter1 iter2 : list nat -> list nat), wf s /\ oper s q [2; 0; 1] /\ copies s q /\ paired s q /\
    (forall l, Permutation (iter1 l) l) /\ (forall l, Permutation (iter2 l) l) /\ algorithm_ok first_two /\
    mat s q = Some ([2], [2], [], [[(6, -3); (9, 3)]; [(12, 9); (15, 15)]]%Z) /\
    out_of (eval iter1 first_two q []) s = Some ([2; 2], [(2, -1); (3, 1); (4, 3); (5, 5)]%Z) /\
    out_of (eval iter2 first_two q []) s = Some ([2; 2], [(6, -3); (9, 3); (12, 9); (15, 15)]%Z).
Proof.
  assert (wf el_loop) as W by (apply el_wf; vm_compute; reflexivity).
  exists el_loop, (Qu [4] [5] [0] [] [0; 1]), idl, (@rev nat). split; [exact W|]. split; [|split; [|split; [|split; [exact idl_perm|split; [exact rev_perm|split; [exact first_two_ok|vm_compute; auto]]]]]].
  - apply accepted_at; [exact W| |cbn; repeat constructor; cbn; intuition lia|vm_compute; reflexivity..].
    intros n _. apply namedb_spec. do 3 (destruct n as [|n]; [vm_compute; reflexivity|]). vm_compute. reflexivity.
  - apply copiesb_spec. vm_compute. reflexivity.
  - apply pairedb_spec. vm_compute. reflexivity.
Qed.
Print Assumptions C40_scalar_loop_refuted.
(** the factor tr(A), referred to by an identity in the loop: it is lost in every order of two nodes; the operator tr(A)
    alone raises *)
Definition el_trace : @st G_cjr := el_run [el_id 2; el_A; el_A; OpConnect (0, 0) (1, 0); OpConnect (0, 1) (1, 1)].
Theorem C40_scalar_factor_refuted :
  exists (s : @st G_cjr) q, wf s /\ oper s q [2; 0; 1] /\ copies s q /\ paired s q /\ algorithm_ok first_two /\
    mat s q = Some ([2], [2], [], [[(18, 1); (17, 19)]; [(16, 37); (15, 55)]]%Z) /\
    out_of (eval idl first_two q []) s = Some ([2; 2], [(2, -1); (3, 1); (4, 3); (5, 5)]%Z) /\
    out_of (eval (@rev nat) first_two q []) s = Some ([2; 2], [(2, -1); (3, 1); (4, 3); (5, 5)]%Z) /\
    snd (eval idl first_two (Qu [] [] [0] [] [0]) [] s) = None /\ snd (construct idl (Qu [] [] [0] [] [0]) s) <> None.
Proof.
  assert (wf el_trace) as W by (apply el_wf; vm_compute; reflexivity).
  exists el_trace, (Qu [4] [5] [0] [] [0]). split; [exact W|]. split; [|split; [|split; [|split; [exact first_two_ok|vm_compute; repeat split; discriminate]]]].
  - apply accepted_at; [exact W| |cbn; repeat constructor; cbn; intuition lia|vm_compute; reflexivity..].
    intros n _. apply namedb_spec. do 3 (destruct n as [|n]; [vm_compute; reflexivity|]). vm_compute. reflexivity.
  - apply copiesb_spec. vm_compute. reflexivity.
  - apply pairedb_spec. vm_compute. reflexivity.
Qed.
Print Assumptions C40_scalar_factor_refuted.
