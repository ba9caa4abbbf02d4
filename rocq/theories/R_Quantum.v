(** * Refutations about operators given by networks (quantum.py) *)
From Coq Require Import ZArith.
From Verif Require Import Prelude Algebra Tensor TensorFacts Einsum Graph GraphBase GraphConnect GraphContract GraphValue GraphQuery GraphQueryFacts GraphCopy GraphCopyFacts GraphDensity GraphExamples P_Copy Quantum QuantumSpec QuantumFacts QuantumNodes QuantumCopy QuantumOps QuantumTrace QuantumMake QuantumIdent QuantumExamples.
Set Implicit Arguments.
Unset Strict Implicit.

(** An object that has an edge both as an in and as an out edge passes the checks of the constructor, which compares
    sets (quantum.py:255-266); its product with itself then fails, although the spaces fit. *)
Theorem C39_construct_repeated_edge_refuted :
  exists (s : @st G_cjr) q, wf s /\ snd (construct idl q s) = Some q /\ cols s q = rows s q /\ snd (matmul idl q q s) = None.
Proof. exists ex_q, (Qu [5; 6] [5; 6] [2] [] []). split; [apply ex_q_wf|]. vm_compute. auto. Qed.
Print Assumptions C39_construct_repeated_edge_refuted.

(** identity([]), the identity on no subsystems, raises (quantum.py:64-83 makes an object without edges and reference nodes) *)
Theorem C39_identity_empty_refuted : exists s : @st G_cjr, wf s /\ snd (identity idl [] s) = None.
Proof. exists ex_q. split; [apply ex_q_wf|reflexivity]. Qed.
Print Assumptions C39_identity_empty_refuted.

(** The trace of the adjoint of an identity is an operator that no later operation can use: its CopyNode has a trace
    edge from axis 1 to axis 0, which CopyNode.copy (network_components.py:800-823) cannot copy.  Without the adjoint
    there is no failure. *)
Definition id_then (k : quop -> @M G_cjr quop) : @M G_cjr quop := bind (identity idl [2]) k.
Theorem C39_adjoint_trace_copy_refuted :
  exists s : @st G_cjr, wf s /\
    mat_of (id_then (fun i => bind (adjoint idl i) (trace idl))) s = Some ([], [], [], [[(2, 0)%Z]]) /\
    snd (id_then (fun i => bind (adjoint idl i) (fun a => bind (trace idl a) (adjoint idl))) s) = None /\
    mat_of (id_then (fun i => bind (trace idl i) (adjoint idl))) s = Some ([], [], [], [[(2, 0)%Z]]).
Proof. exists ex_q. split; [apply ex_q_wf|]. vm_compute. auto. Qed.
Print Assumptions C39_adjoint_trace_copy_refuted.

(** partial_trace does not treat the subsystems as a set: a repeated index raises *)
Theorem C39_partial_trace_repeated_refuted :
  exists (s : @st G_cjr) q ns, wf s /\ oper s q ns /\ copyable s q /\ rows s q = cols s q /\ snd (partial_trace idl q [0; 0] s) = None /\ snd (partial_trace idl q [0] s) <> None.
Proof.
  destruct ex_B_oper as [ns O]. exists ex_q, ex_B, ns. split; [apply ex_q_wf|]. split; [exact O|]. split; [intros n e ed a2 []|]. vm_compute. repeat split; auto. discriminate.
Qed.
Print Assumptions C39_partial_trace_repeated_refuted.
