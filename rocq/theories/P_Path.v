(** * Property C23: contracting a network with a path contractor *)
From Coq Require Import ZArith.
From Verif Require Import Prelude Algebra Tensor TensorFacts Einsum EinsumFacts NetworkFacts Graph GraphBase GraphContract GraphOps GraphValue GraphOuter GraphConnect GraphProg GraphSched GraphQuery GraphQueryFacts GraphCompound GraphExamples GraphTotal GraphTotal2 PathContract PathFacts P_Total.
Set Implicit Arguments.
Unset Strict Implicit.

(** Vocabulary (PathFacts.v, PathContract.v):
    - [boundary s ns e]: edge e has exactly one of its ends on the nodes [ns] (the other is missing or elsewhere);
    - [order_for s ns order ignore]: the edge order is ignored, or it lists the boundary without repetition, or it
      is not given and the boundary has at most one edge;
    - [algorithm_ok alg]: for two or more tensors the algorithm returns a path that ends with one tensor;
    - [contracted_to s ns s' N order ignore]: N carries exactly the boundary edges (in the given order unless it is
      ignored), its tensor is the value of the network [ns] in the old state, the state is well-formed and nodes
      outside [ns] are untouched. *)

(** optimal, branch, greedy and custom all are [base] with some algorithm *)
Theorem C23_base (R : csr) (iter : list nat -> list nat) (iter_perm : forall l, Permutation (iter l) l)
    alg ns order ignore (s : @st R) :
  wf s -> ns <> [] -> (forall n, In n ns -> is_node s n /\ nameable s n) -> algorithm_ok alg -> order_for s ns order ignore ->
  exists s' N, base iter alg ns order ignore s = (s', Some N) /\ contracted_to s ns s' N order ignore.
Proof. exact (@base_ok R iter iter_perm alg ns order ignore s). Qed.
Print Assumptions C23_base.

(** two algorithms (and two set orders) give the same tensor *)
Theorem C23_path_independent (R : csr) (iter1 iter2 : list nat -> list nat)
    (iter_perm1 : forall l, Permutation (iter1 l) l) (iter_perm2 : forall l, Permutation (iter2 l) l)
    alg1 alg2 ns o (s : @st R) :
  wf s -> ns <> [] -> (forall n, In n ns -> is_node s n /\ nameable s n) -> algorithm_ok alg1 -> algorithm_ok alg2 -> order_for s ns (Some o) false ->
  exists s1 N1 d1 s2 N2 d2, base iter1 alg1 ns (Some o) false s = (s1, Some N1) /\ base iter2 alg2 ns (Some o) false s = (s2, Some N2) /\
    s_nodes s1 N1 = Some d1 /\ s_nodes s2 N2 = Some d2 /\ n_edges d1 = o /\ n_edges d2 = o /\ teq (n_t d1) (n_t d2).
Proof. exact (@base_agree R iter1 iter2 iter_perm1 iter_perm2 alg1 alg2 ns o s). Qed.
Print Assumptions C23_path_independent.

Theorem C23_reject (R : csr) (iter : list nat -> list nat) (iter_perm : forall l, Permutation (iter l) l) alg ns o (s : @st R) :
  wf s -> (forall n, In n ns -> is_node s n) -> ~ (forall e, In e o <-> boundary s ns e) ->
  base iter alg ns (Some o) false s = (s, None).
Proof. exact (@base_reject R iter iter_perm alg ns o s). Qed.
Print Assumptions C23_reject.
Theorem C23_ambiguous (R : csr) (iter : list nat -> list nat) (iter_perm : forall l, Permutation (iter l) l) alg ns (s : @st R) :
  wf s -> (forall n, In n ns -> is_node s n) -> (exists e f, e <> f /\ boundary s ns e /\ boundary s ns f) ->
  base iter alg ns None false s = (s, None).
Proof. exact (@base_ambiguous R iter iter_perm alg ns s). Qed.
Print Assumptions C23_ambiguous.

Theorem C23_auto (R : csr) (iter : list nat -> list nat) (iter_perm : forall l, Permutation (iter l) l)
    algs ns order ignore (s : @st R) :
  wf s -> 2 <= length ns -> (forall n, In n ns -> is_node s n /\ nameable s n) -> (forall k, algorithm_ok (algs k)) -> order_for s ns order ignore ->
  exists s' N, auto iter algs ns order ignore s = (s', Some N) /\ contracted_to s ns s' N order ignore.
Proof. exact (@auto_many R iter iter_perm algs ns order ignore s). Qed.
Print Assumptions C23_auto.
(** one node: right only when no edge leads to another node (see R_Path.v) and the order is known *)
Theorem C23_auto_one (R : csr) (iter : list nat -> list nat) (iter_perm : forall l, Permutation (iter l) l)
    algs n order ignore (s : @st R) :
  wf s -> is_node s n -> nameable s n -> (forall m e, between s n m e -> m = n) ->
  order_for s [n] order false -> (ignore = true -> order <> None) ->
  exists s' N, auto iter algs [n] order ignore s = (s', Some N) /\ contracted_to s [n] s' N order false.
Proof. exact (@auto_one R iter iter_perm algs n order ignore s). Qed.
Print Assumptions C23_auto_one.

(** contract_path: right only when no node has a trace edge (see R_Path.v) *)
Theorem C23_contract_path (R : csr) (iter : list nat -> list nat) (iter_perm : forall l, Permutation (iter l) l)
    path ns order (s : @st R) :
  wf s -> NoDup ns -> (forall n, In n ns -> is_node s n /\ nameable s n) -> (forall n e, In n ns -> ~ between s n n e) ->
  valid_path (length ns) path -> NoDup order -> (forall e, In e order <-> boundary s ns e) ->
  exists s' N, contract_path iter path ns order s = (s', Some N) /\ contracted_to s ns s' N (Some order) false.
Proof. exact (@contract_path_ok R iter iter_perm path ns order s). Qed.
Print Assumptions C23_contract_path.

(** ** Examples *)
(** the path that always contracts the first two tensors *)
Definition first_two : algorithm := fun ins _ _ => repeat (0, 1) (length ins - 1).
Lemma first_two_ok : algorithm_ok first_two.
Proof.
  intros ins out sz. unfold first_two. generalize (length ins). intros n. induction n as [|n IH]; [lia|]. intros H. destruct n as [|n]; [lia|].
  cbn [Nat.sub repeat]. cbn [valid_path]. split; [lia|]. split; [lia|]. split; [discriminate|]. destruct n as [|n]; [cbn; reflexivity|].
  cbn [Nat.sub]. specialize (IH ltac:(lia)). cbn [Nat.sub] in IH. exact IH.
Qed.
Lemma boundary_list (s : @st Z_csr) ns l : wf s -> (forall n, In n ns -> is_node s n) ->
  snd (get_subgraph_dangling idl ns s) = Some l -> forall e, In e l <-> boundary s ns e.
Proof.
  intros W H E. destruct (get_subgraph_dangling_spec idl_perm W H) as (l' & E' & _ & K). rewrite E' in E. injection E as ->. exact K.
Qed.
Lemma ex_nodes : forall n, In n [0; 1; 2] -> is_node ex_s n /\ nameable ex_s n.
Proof. intros n [<-|[<-|[<-|[]]]]; (split; [vm_compute; discriminate|apply nameableb; vm_compute; reflexivity]). Qed.
(** the example network (with a trace edge) meets the hypotheses, in the reversed set order as well *)
Example C23_example : order_for ex_s [0; 1; 2] (Some [8]) false /\ order_for ex_s [0; 1; 2] None false /\
  order_for ex_s [0; 1] (Some [12]) false /\ algorithm_ok first_two /\
  snd (base rvl first_two [0; 1; 2] None false ex_s) = Some 5 /\
  edges_at (fst (base rvl first_two [0; 1; 2] None false ex_s)) 5 = Some [8] /\
  entries (fst (base rvl first_two [0; 1; 2] None false ex_s)) 5 = Some ([2], [3600; 4750]%Z).
Proof.
  assert (forall e, In e [8] <-> boundary ex_s [0; 1; 2] e) as H.
  { apply boundary_list; [exact ex_wf|intros n Hn; apply (ex_nodes Hn)|vm_compute; reflexivity]. }
  assert (forall e, In e [12] <-> boundary ex_s [0; 1] e) as H2.
  { apply boundary_list; [exact ex_wf|intros n Hn; apply ex_nodes; revert Hn; clear; cbn [In]; tauto|vm_compute; reflexivity]. }
  split; [right; split; [repeat constructor; intros []|exact H]|]. split; [right; intros e f He Hf; apply H in He; apply H in Hf; destruct He as [<-|[]]; destruct Hf as [<-|[]]; reflexivity|].
  split; [right; split; [repeat constructor; intros []|exact H2]|]. split; [exact first_two_ok|]. repeat split; vm_compute; reflexivity.
Qed.
(** nodes 1 and 2 have no trace edge; node 0 alone has edges leading to node 1 *)
Example C23_contract_path_example : (forall n e, In n [1; 2] -> ~ between ex_s n n e) /\ valid_path 2 [(1, 0)] /\
  (forall e, In e [8; 10; 9] <-> boundary ex_s [1; 2] e) /\ snd (contract_path rvl [(1, 0)] [1; 2] [8; 10; 9] ex_s) = Some 3.
Proof.
  split.
  { intros n e Hn. assert (is_node ex_s n) as K by (apply ex_nodes; revert Hn; clear; cbn [In]; tauto). revert e. apply (plain_spec K). destruct Hn as [<-|[<-|[]]]; vm_compute; repeat constructor; cbn; intuition congruence. }
  split; [cbn; repeat split; lia|]. split; [|vm_compute; reflexivity].
  intros e. rewrite <- (@boundary_list ex_s [1; 2] [10; 9; 8] ex_wf); [cbn; tauto|intros n Hn; apply ex_nodes; revert Hn; clear; cbn [In]; tauto|vm_compute; reflexivity].
Qed.
