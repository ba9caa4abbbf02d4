(** * QuantumExamples: operators over the Gaussian integers used by the examples for C39 and C40 *)
From Coq Require Import ZArith.
From Verif Require Import Prelude Algebra Tensor TensorFacts Einsum EinsumFacts NetworkFacts Graph GraphBase GraphContract GraphOps GraphValue GraphOuter GraphConnect GraphProg GraphSched GraphQuery GraphQueryFacts GraphCopy GraphCopyFacts GraphDensity GraphExamples P_Copy Quantum QuantumSpec QuantumFacts QuantumNodes QuantumCopy QuantumJoin QuantumUnion QuantumOps QuantumTrace QuantumMake QuantumIdent.
Set Implicit Arguments.
Unset Strict Implicit.

(** nodes 0 (2x3x2) and 1 (3x2) are joined; nodes 2 (2x2) and 3 (3x3) stand alone *)
Definition ex_q_ops : list (@op G_cjr) :=
  [OpNode (gt 1 [2; 3; 2]) None; OpNode (gt (-3) [3; 2]) None; OpNode (gt 2 [2; 2]) None; OpNode (gt (-5) [3; 3]) None; OpConnect (0, 1) (1, 0)].
Definition ex_q : @st G_cjr := fst (exec_ops idl ex_q_ops (@empty_st G_cjr)).
Lemma ex_q_wf : wf ex_q.
Proof.
  apply (@exec_ops_wf G_cjr idl idl_perm ex_q_ops (@empty_st G_cjr) ex_q tt empty_wf). unfold ex_q.
  assert (snd (exec_ops idl ex_q_ops (@empty_st G_cjr)) = Some tt) as <- by (vm_compute; reflexivity). apply surjective_pairing.
Qed.
Lemma ex_q_named n : is_node ex_q n -> named ex_q n.
Proof. intros _. apply namedb_spec. destruct n as [|[|[|[|n]]]]; vm_compute; reflexivity. Qed.

(** the constructor accepts a concrete object: it is an operator *)
Lemma accepted (s : @st G_cjr) q : wf s -> (forall n, is_node s n -> named s n) -> NoDup (q_edges q) -> forallb (fun n => match s_nodes s n with Some _ => true | None => false end) (q_ref q) = true ->
  q_cps q = [] -> snd (construct idl q s) = Some q -> exists ns, oper s q ns.
Proof.
  intros W Hn HN Hr Hc H. destruct (construct_spec idl_perm W HN Hn) as [(ns & O & _)|[_ E]].
  - intros n Q. apply (proj1 (forallb_forall _ _) Hr) in Q. unfold is_node. destruct (s_nodes s n); [discriminate|discriminate Q].
  - intros n ns Q. rewrite Hc in Q. destruct Q.
  - exists ns. exact O.
  - rewrite E in H. discriminate.
Qed.

(** [ex_A] is 2x2 with an ignored edge of dimension 2; [ex_B] is the tensor product of the matrices at nodes 2 and 3 *)
Definition ex_A : quop := Qu [0] [4] [0] [2] [].
Definition ex_B : quop := Qu [5; 7] [6; 8] [] [] [].
Lemma ex_A_oper : exists ns, oper ex_q ex_A ns.
Proof. apply accepted; [apply ex_q_wf|apply ex_q_named|repeat constructor; cbn; intuition lia|reflexivity|reflexivity|vm_compute; reflexivity]. Qed.
Lemma ex_B_oper : exists ns, oper ex_q ex_B ns.
Proof. apply accepted; [apply ex_q_wf|apply ex_q_named|repeat constructor; cbn; intuition lia|reflexivity|reflexivity|vm_compute; reflexivity]. Qed.

(** run an operation, list the dimensions and all entries of the result *)
Definition mat (s : @st G_cjr) (q : quop) : option (list nat * list nat * list nat * list (list (Z * Z))) :=
  match snd (q_nodes idl q s) with
  | Some ns => let is := idxs (rows s q) in let js := idxs (cols s q) in let gs := idxs (map (edim s) (q_ign q)) in
    Some (rows s q, cols s q, map (edim s) (q_ign q), map (fun i => flat_map (fun j => map (fun g => entry (R := G_cjr) s ns q i j g) gs) js) is)
  | None => None
  end.
Definition mat_of (m : @M G_cjr quop) (s : @st G_cjr) := match m s with (s', Some q) => mat s' q | _ => None end.
