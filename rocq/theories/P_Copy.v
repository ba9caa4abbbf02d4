(** * Properties C07, C10, C47: copies of networks and reduced density matrices *)
From Coq Require Import ZArith.
From Verif Require Import Prelude Algebra Tensor TensorFacts Einsum EinsumFacts NetworkFacts Graph GraphBase GraphContract GraphOps GraphValue GraphOuter GraphConnect GraphProg GraphSched GraphQuery GraphQueryFacts GraphCompound GraphCopy NetIso GraphCopyFacts GraphDensity GraphExamples.
Set Implicit Arguments.
Unset Strict Implicit.

(** C10: copy of any collection of nodes succeeds; [copy_spec] (GraphCopyFacts.v) says that the
    copies are new nodes with the same (or conjugated) tensors and names, wired to each other exactly
    as the originals are, with no edge in common with the originals, which stay untouched, and what
    the two dictionaries contain. *)
Theorem C10_copy (R : cjr) (iter : list nat -> list nat) (iter_perm : forall l, Permutation (iter l) l) conj (s : @st R) ns :
  wf s -> NoDup ns -> (forall n, In n ns -> is_node s n /\ named s n) ->
  exists s' d ee, copy iter ns conj s = (s', Some (d, ee)) /\ copy_spec conj s s' ns d ee.
Proof. intros W H1 H2. destruct (copy_ok iter_perm conj W H1 H2) as (s' & d & ee & H & C & _). exists s', d, ee. auto. Qed.
Print Assumptions C10_copy.
Theorem C10_copy_outside (R : cjr) conj (s s' : @st R) ns d ee n N k e :
  (forall m, In m ns -> is_node s m) -> copy_spec conj s s' ns d ee -> dget d n = Some N -> slot s (n, k) = Some e ->
  (forall m l, In m ns -> slot s (m, l) = Some e -> (m, l) = (n, k)) -> exists f, slot s' (N, k) = Some f /\ open_on s' N f.
Proof. exact (@copy_outside R conj s s' ns d ee n N k e). Qed.
Print Assumptions C10_copy_outside.
(** the value of the copy is the (conjugate) value of the original, for all indices of the loose ends *)
Theorem C10_copy_value (R : cjr) conj (s s' : @st R) ns d ee Ns a a' :
  wf s -> (forall n, In n ns -> is_node s n) -> copy_spec conj s s' ns d ee ->
  Forall2 (fun n N => dget d n = Some N) ns Ns -> follows s s' ns d a a' ->
  netval s' Ns a' = if conj then cj (netval s ns a) else netval s ns a.
Proof. exact (@copy_value R conj s s' ns d ee Ns a a'). Qed.
Print Assumptions C10_copy_value.
Theorem C10_replicate_nodes (R : cjr) (iter : list nat -> list nat) (iter_perm : forall l, Permutation (iter l) l) conj (s : @st R) ns :
  wf s -> NoDup ns -> (forall n, In n ns -> is_node s n /\ named s n) ->
  exists s' d ee Ns, replicate_nodes iter ns conj s = (s', Some Ns) /\ copy_spec conj s s' ns d ee /\ Forall2 (fun n N => dget d n = Some N) ns Ns.
Proof. exact (@replicate_ok R iter iter_perm conj s ns). Qed.
Print Assumptions C10_replicate_nodes.

(** a network over the Gaussian integers: node 0 (2x3x2x2) with a trace edge on axes 2, 3, joined to
    node 1 (3x2x2) by two edges, which is joined to node 2 (2x2); axis 1 of node 2 dangles *)
Definition gt (k : Z) (sh : list nat) : tensor G_cjr := @Tensor G_cjr sh (fun ix => (Z.of_nat (ravel sh ix) + k, Z.of_nat (ravel sh ix) * k - 1)%Z).
Definition ex_g_ops : list (@op G_cjr) :=
  [OpNode (gt 1 [2; 3; 2; 2]) None; OpNode (gt (-3) [3; 2; 2]) None; OpNode (gt 2 [2; 2]) (Some [7; 9]);
   OpConnect (0, 0) (1, 1); OpConnect (0, 1) (1, 0); OpConnect (0, 3) (0, 2); OpConnect (1, 2) (2, 0)].
Definition ex_g : @st G_cjr := fst (exec_ops idl ex_g_ops (@empty_st G_cjr)).
Lemma ex_g_wf : wf ex_g.
Proof.
  apply (@exec_ops_wf G_cjr idl idl_perm ex_g_ops (@empty_st G_cjr) ex_g tt empty_wf). unfold ex_g.
  assert (snd (exec_ops idl ex_g_ops (@empty_st G_cjr)) = Some tt) as <- by (vm_compute; reflexivity). apply surjective_pairing.
Qed.
Lemma ex_g_named n : is_node ex_g n -> named ex_g n.
Proof.
  intros _. apply namedb_spec. destruct n as [|[|[|n]]]; vm_compute; reflexivity.
Qed.
(** nodes 0 and 1 are copied: 3 and 4 are the copies, the edge from 1 to 2 is cut *)
Definition ex_g1 := fst (copy (R := G_cjr) idl [0; 1] true ex_g).
Example C10_example : wf ex_g /\ NoDup [0; 1] /\ (forall n, In n [0; 1] -> is_node ex_g n /\ named ex_g n) /\
  option_map fst (snd (copy (R := G_cjr) idl [0; 1] true ex_g)) = Some [(1, 4); (0, 3)] /\
  (** same sharing pattern: (3,0)=(4,1), (3,1)=(4,0), (3,2)=(3,3), (4,2) loose *)
  option_map (fun nd => n_edges nd) (s_nodes ex_g 0) = Some [9; 10; 11; 11] /\ option_map (fun nd => n_edges nd) (s_nodes ex_g 1) = Some [10; 9; 12] /\
  option_map (fun nd => n_edges nd) (s_nodes ex_g1 3) = Some [28; 27; 19; 19] /\ option_map (fun nd => n_edges nd) (s_nodes ex_g1 4) = Some [27; 28; 29] /\
  option_map (fun nd => n_edges nd) (s_nodes ex_g1 1) = Some [10; 9; 12] /\
  option_map (fun nd => map (elt (n_t nd)) [[0; 1; 0]; [2; 1; 1]]) (s_nodes ex_g1 4) = Some [(-1, 7); (8, 34)]%Z /\
  netval (R := G_csr) ex_g1 [3; 4] (fun e => if Nat.eqb e 29 then 1 else 0) = cj (c := G_cjr) (netval (R := G_csr) ex_g [0; 1] (fun e => if Nat.eqb e 12 then 1 else 0)) /\
  netval (R := G_csr) ex_g [0; 1] (fun e => if Nat.eqb e 12 then 1 else 0) <> cj (c := G_cjr) (netval (R := G_csr) ex_g [0; 1] (fun e => if Nat.eqb e 12 then 1 else 0)).
Proof.
  split; [exact ex_g_wf|]. split; [repeat constructor; cbn; intuition discriminate|].
  assert (forall n, In n [0; 1] -> is_node ex_g n) as Hn by (intros n [<-|[<-|[]]]; apply is_nodeb_spec; vm_compute; reflexivity).
  split; [intros n Hi; split; [|apply ex_g_named]; apply Hn, Hi|].
  do 8 (split; [vm_compute; reflexivity|]). vm_compute. discriminate.
Qed.

(** C07 with copies: every graph obtained from the empty one by the operations of GraphProg.v and
    by copying nodes, in any order, is well-formed *)
Inductive history (R : cjr) (iter : list nat -> list nat) : @st R -> Prop :=
| h_empty : history iter (@empty_st R)
| h_ops s s' l x : history iter s -> exec_ops iter l s = (s', Some x) -> history iter s'
| h_copy s s' ns conj x : history iter s -> NoDup ns -> (forall n, In n ns -> is_node s n) -> copy iter ns conj s = (s', Some x) -> history iter s'
| h_density s s' es x : history iter s -> es <> [] -> NoDup es -> (forall e, In e es -> exists n, open_on s n e) ->
    (forall e n m, In e es -> on s n e -> connected s n m -> named s m) -> reduced_density iter es s = (s', Some x) -> history iter s'.
Theorem C07_history_copy (R : cjr) (iter : list nat -> list nat) (iter_perm : forall l, Permutation (iter l) l) (s : @st R) :
  history iter s -> wf s.
Proof.
  induction 1 as [|s s' l x _ IH H|s s' ns conj [d ee] _ IH HN Hns H|s s' es x _ IH H1 H2 H3 H4 H].
  - exact empty_wf.
  - exact (exec_ops_wf iter_perm IH H).
  - exact (cs_wf (copy_returns iter_perm IH HN Hns H)).
  - destruct (reduced_density_ok iter_perm IH H1 H2 H3 H4) as (s1 & ns & Ns & d & ee & E & D).
    rewrite H in E. injection E as <- _. exact (ds_wf D).
Qed.
Print Assumptions C07_history_copy.
Example C07_history_copy_example : history (R := G_cjr) idl (fst (exec_ops idl [OpParallel (1, 0); OpRemove 2] ex_g1)).
Proof.
  apply (@h_ops G_cjr idl ex_g1 _ [OpParallel (1, 0); OpRemove 2] tt).
  - assert (exists x, copy (R := G_cjr) idl [0; 1] true ex_g = (ex_g1, Some x)) as [x E].
    { unfold ex_g1. destruct (copy (R := G_cjr) idl [0; 1] true ex_g) as [s1 [x|]] eqn:E; [exists x; reflexivity|].
      exfalso. assert (option_map fst (snd (copy (R := G_cjr) idl [0; 1] true ex_g)) = Some [(1, 4); (0, 3)]) as K by (vm_compute; reflexivity). rewrite E in K. discriminate K. }
    apply (@h_copy G_cjr idl ex_g ex_g1 [0; 1] true x); [|repeat constructor; cbn; intuition discriminate|intros n [<-|[<-|[]]]; apply is_nodeb_spec; vm_compute; reflexivity|exact E].
    apply (@h_ops G_cjr idl (@empty_st G_cjr) ex_g ex_g_ops tt); [constructor|]. unfold ex_g.
    assert (snd (exec_ops idl ex_g_ops (@empty_st G_cjr)) = Some tt) as <- by (vm_compute; reflexivity). apply surjective_pairing.
  - assert (snd (exec_ops idl [OpParallel (1, 0); OpRemove 2] ex_g1) = Some tt) as <- by (vm_compute; reflexivity). apply surjective_pairing.
Qed.

(** C47: [density_spec] (GraphDensity.v): the connected part carrying the given dangling edges is
    copied with conjugation, each given edge joins an original axis to the same axis of its copy,
    nothing else is rewired, and the network computes the partial trace of |psi><psi| *)
Theorem C47_reduced_density (R : cjr) (iter : list nat -> list nat) (iter_perm : forall l, Permutation (iter l) l) (s : @st R) es :
  wf s -> es <> [] -> NoDup es -> (forall e, In e es -> exists n, open_on s n e) ->
  (forall e n m, In e es -> on s n e -> connected s n m -> named s m) ->
  exists s' ns Ns d ee, reduced_density iter es s = (s', Some (d, ee)) /\ density_spec s s' es ns Ns d ee.
Proof. exact (@reduced_density_ok R iter iter_perm s es). Qed.
Print Assumptions C47_reduced_density.
Theorem C47_reduced_density_reject (R : cjr) (iter : list nat -> list nat) (s : @st R) es e n m :
  wf s -> In e es -> between s n m e -> reduced_density iter es s = (s, None).
Proof. exact (@reduced_density_reject R iter s es e n m). Qed.
Print Assumptions C47_reduced_density_reject.

(** two joined nodes with one further dangling axis each; the dangling axis of node 0 is traced *)
Definition ex_r_ops : list (@op G_cjr) := [OpNode (gt 1 [2; 3]) None; OpNode (gt (-3) [3; 2]) None; OpConnect (0, 1) (1, 0)].
Definition ex_r : @st G_cjr := fst (exec_ops idl ex_r_ops (@empty_st G_cjr)).
Definition ex_r1 := fst (reduced_density (R := G_cjr) idl [0] ex_r).
Example C47_example : wf ex_r /\ (forall e, In e [0] -> exists n, open_on ex_r n e) /\
  (forall e n m, In e [0] -> on ex_r n e -> connected ex_r n m -> named ex_r m) /\
  snd (reduced_density (R := G_cjr) idl [0] ex_r) = Some ([(1, 3); (0, 2)], [(0, 16); (0, 13); (4, 14); (3, 15)]) /\
  option_map (fun nd => n_edges nd) (s_nodes ex_r1 0) = Some [16; 4] /\ option_map (fun nd => n_edges nd) (s_nodes ex_r1 2) = Some [16; 14] /\
  option_map (fun nd => n_edges nd) (s_nodes ex_r1 1) = Some [4; 3] /\ option_map (fun nd => n_edges nd) (s_nodes ex_r1 3) = Some [14; 15].
Proof.
  assert (wf ex_r) as W.
  { apply (@exec_ops_wf G_cjr idl idl_perm ex_r_ops (@empty_st G_cjr) ex_r tt empty_wf). unfold ex_r.
    assert (snd (exec_ops idl ex_r_ops (@empty_st G_cjr)) = Some tt) as <- by (vm_compute; reflexivity). apply surjective_pairing. }
  split; [exact W|]. split.
  { intros e [<-|[]]. exists 0. apply (edge_dangling_spec (n := 0) W); [exists 0|]; vm_compute; reflexivity. }
  split.
  { intros e n m _ Hn Hc. apply namedb_spec. destruct m as [|[|m]]; vm_compute; reflexivity. }
  do 4 (split; [vm_compute; reflexivity|]). vm_compute. reflexivity.
Qed.
