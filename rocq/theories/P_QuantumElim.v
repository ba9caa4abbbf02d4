(** * Property C40: eliminating identities preserves the operator

    The network of an operator may contain identities: CopyNodes with two legs.  [copies s q] says that the CopyNodes
    carry copy tensors, [linked s q ns] that every node is a reference node or is connected to a row or column edge,
    [paired s q] that an identity with one loose leg is not joined to an identity without loose legs
    (QuantumElimSpec.v).  [iter] is the order in which Python iterates over sets; all theorems hold for every order. *)
From Coq Require Import ZArith.
From Verif Require Import Prelude Algebra Tensor TensorFacts Einsum Graph GraphBase GraphConnect GraphContract GraphValue GraphSched GraphQuery GraphQueryFacts GraphCopy GraphExamples P_Copy P_Path PathContract PathFacts CopyTensor Quantum QuantumSpec QuantumExamples QuantumElim QuantumElimSpec QuantumElimMain QuantumElimExamples.
Set Implicit Arguments.
Unset Strict Implicit.

(** eliminate_identities: the network that remains, with its loose ends renamed, has the same values; only identities
    are removed, and those left over have two loose legs.  Whatever the order [todo] in which the nodes are visited. *)
Theorem C40_eliminate (R : cjr) (s : @st R) (q : quop) (ns todo : list nid) :
  wf s -> oper s q ns -> copies s q -> Permutation ns todo ->
  exists s' nd dd phi, eliminate (q_cps q) todo ([], []) s = (s', Some (nd, dd)) /\ reduced s q ns s' (map snd nd) phi.
Proof. exact (@eliminate_ok R s q ns todo). Qed.
Print Assumptions C40_eliminate.
(** (the six nodes of [ex_i] in two orders: what remains, and the dictionaries) *)
Example C40_eliminate_example : wf ex_i /\ oper ex_i ex_I [0; 1; 2; 3; 4; 5] /\ copies ex_i ex_I /\
  snd (eliminate (q_cps ex_I) [0; 1; 2; 3; 4; 5] ([], []) ex_i) = Some ([(5, 6); (3, 3); (1, 1)], [(6, 6); (7, 7); (5, 18); (17, 17); (0, 17)]) /\
  snd (eliminate (q_cps ex_I) [1; 4; 2; 5; 3; 0] ([], []) ex_i) <> None.
Proof. split; [apply ex_i_wf|]. split; [apply ex_I_oper|]. split; [apply ex_I_copies|]. split; [vm_compute; reflexivity|vm_compute; discriminate]. Qed.

(** the part of contract and eval before the contraction (quantum.py 445-451): the operator after the elimination is the
    one before it, and no identity is left inside the network *)
Theorem C40_simplify (R : cjr) (iter : list nat -> list nat) (iter_perm : forall l, Permutation (iter l) l) (s : @st R) (q : quop) (ns : list nid) :
  wf s -> oper s q ns -> copies s q -> linked s q ns -> paired s q ->
  exists s' q' ns' dd phi, simplify iter q s = (s', Some (q', dd)) /\ simplified s q ns s' q' ns' dd phi.
Proof. exact (@simplify_ok R iter iter_perm s q ns). Qed.
Print Assumptions C40_simplify.
(** without [paired]: it may fail (C40_chain_of_identities_refuted), but if it does not the operator is the same *)
Theorem C40_simplify_sound (R : cjr) (iter : list nat -> list nat) (iter_perm : forall l, Permutation (iter l) l) (s : @st R) (q : quop) (ns : list nid) (s' : @st R) (q' : quop) (dd : list (eid * eid)) :
  wf s -> oper s q ns -> copies s q -> linked s q ns -> simplify iter q s = (s', Some (q', dd)) ->
  exists ns' phi, simplified s q ns s' q' ns' dd phi.
Proof. exact (@simplify_sound R iter iter_perm s q ns s' q' dd). Qed.
Print Assumptions C40_simplify_sound.
Example C40_simplify_example : wf ex_i /\ oper ex_i ex_I [0; 1; 2; 3; 4; 5] /\ copies ex_i ex_I /\ linked ex_i ex_I [0; 1; 2; 3; 4; 5] /\ paired ex_i ex_I /\
  option_map fst (snd (simplify idl ex_I ex_i)) = Some (Qu [17; 6] [18; 7] [6] [] [3]).
Proof. split; [apply ex_i_wf|]. split; [apply ex_I_oper|]. split; [apply ex_I_copies|]. split; [apply ex_I_linked|]. split; [apply ex_I_paired|]. vm_compute. reflexivity. Qed.

(** contract, with any contractor and any order of the final axes: an operator of one node with the same entries *)
Theorem C40_contract (R : cjr) (iter : list nat -> list nat) (iter_perm : forall l, Permutation (iter l) l) (alg : algorithm) (s : @st R) (q : quop) (ns : list nid) (order : list eid) :
  wf s -> oper s q ns -> copies s q -> linked s q ns -> paired s q -> algorithm_ok alg -> order = [] \/ axis_order q order ->
  exists s' q' N, contract iter alg q order s = (s', Some q') /\ contracted s q ns order s' q' N.
Proof. exact (@contract_ok R iter iter_perm alg s q ns order). Qed.
Print Assumptions C40_contract.
Theorem C40_contract_sound (R : cjr) (iter : list nat -> list nat) (iter_perm : forall l, Permutation (iter l) l) (alg : algorithm) (s : @st R) (q : quop) (ns : list nid) (order : list eid) (s' : @st R) (q' : quop) :
  wf s -> oper s q ns -> copies s q -> linked s q ns -> algorithm_ok alg -> order = [] \/ axis_order q order ->
  contract iter alg q order s = (s', Some q') -> exists N, contracted s q ns order s' q' N.
Proof. exact (@contract_sound R iter iter_perm alg s q ns order s' q'). Qed.
Print Assumptions C40_contract_sound.
Example C40_contract_example : algorithm_ok first_two /\ axis_order ex_I [7; 0; 6; 5] /\
  mat_of (contract idl first_two ex_I []) ex_i = mat ex_i ex_I /\ mat_of (contract (@rev nat) first_two ex_I [7; 0; 6; 5]) ex_i = mat ex_i ex_I /\ mat ex_i ex_I <> None.
Proof.
  split; [apply first_two_ok|]. split; [apply NoDup_Permutation; [repeat constructor; cbn; intuition lia|cbn; repeat constructor; cbn; intuition lia|intros e; cbn; intuition lia]|].
  vm_compute. repeat split; discriminate.
Qed.

(** eval: the tensor has the axes asked for (by default the ignored edges, the rows and the columns) and the values of
    the network *)
Theorem C40_eval (R : cjr) (iter : list nat -> list nat) (iter_perm : forall l, Permutation (iter l) l) (alg : algorithm) (s : @st R) (q : quop) (ns : list nid) (order : list eid) :
  wf s -> oper s q ns -> copies s q -> linked s q ns -> paired s q -> algorithm_ok alg -> order = [] \/ axis_order q order ->
  exists s' T, eval iter alg q order s = (s', Some T) /\
    evaluated s q ns (match order with [] => iter (q_ign q) ++ q_out q ++ q_in q | _ => order end) T.
Proof. exact (@eval_ok R iter iter_perm alg s q ns order). Qed.
Print Assumptions C40_eval.
Theorem C40_eval_sound (R : cjr) (iter : list nat -> list nat) (iter_perm : forall l, Permutation (iter l) l) (alg : algorithm) (s : @st R) (q : quop) (ns : list nid) (order : list eid) (s' : @st R) (T : tensor R) :
  wf s -> oper s q ns -> copies s q -> linked s q ns -> algorithm_ok alg -> order = [] \/ axis_order q order ->
  eval iter alg q order s = (s', Some T) ->
  evaluated s q ns (match order with [] => iter (q_ign q) ++ q_out q ++ q_in q | _ => order end) T.
Proof. exact (@eval_sound R iter iter_perm alg s q ns order s' T). Qed.
Print Assumptions C40_eval_sound.
(** for an operator without ignored edges: the matrix of the operator, the same for every order in which the nodes are
    visited and every contractor *)
Theorem C40_eval_matrix (R : cjr) (iter : list nat -> list nat) (iter_perm : forall l, Permutation (iter l) l) (alg : algorithm) (s : @st R) (q : quop) (ns : list nid) :
  wf s -> oper s q ns -> copies s q -> linked s q ns -> paired s q -> algorithm_ok alg -> q_ign q = [] ->
  exists s' T, eval iter alg q [] s = (s', Some T) /\ shape T = rows s q ++ cols s q /\
    forall i j, valid i (rows s q) -> valid j (cols s q) -> elt T (i ++ j) = entry s ns q i j [].
Proof.
  intros W O C L P Ha Hi. destruct (@eval_ok R iter iter_perm alg s q ns [] W O C L P Ha (or_introl eq_refl)) as (s' & T & E & H).
  exists s', T. split; [exact E|]. exact (evaluated_matrix iter_perm W O Hi H).
Qed.
Print Assumptions C40_eval_matrix.
Example C40_eval_example : q_ign ex_I = [] /\ out_of (eval idl first_two ex_I []) ex_i = out_of (eval (@rev nat) first_two ex_I []) ex_i /\
  option_map (fun x => (fst x, firstn 4 (snd x))) (out_of (eval idl first_two ex_I []) ex_i) = Some ([2; 3; 2; 3], [(6, -3); (0, 0); (0, 0); (9, 3)]%Z).
Proof. vm_compute. auto. Qed.
