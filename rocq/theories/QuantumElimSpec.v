(** * QuantumElimSpec: identities in the network of an operator *)
From Verif Require Import Prelude Algebra Tensor TensorFacts Einsum EinsumFacts NetworkFacts Graph GraphBase GraphConnect GraphContract GraphValue GraphSched GraphQuery GraphQueryFacts GraphCopy CopyTensor Quantum QuantumSpec.
Set Implicit Arguments.
Unset Strict Implicit.

Section QuantumElimSpec.
  Context {R : cjr}.
  Notation st := (@st R).
  Implicit Types (s : st) (q : quop) (e : eid) (n m : nid).

  (** the nodes of class CopyNode carry copy tensors *)
  Definition copies s q : Prop :=
    forall n, In n (q_cps q) -> exists nd k d, s_nodes s n = Some nd /\ teq (n_t nd) (copy_tensor k d).
  (** [n] is a CopyNode with two legs *)
  Definition ident s q n : Prop := In n (q_cps q) /\ exists nd, s_nodes s n = Some nd /\ rank (n_t nd) = 2.

  (** every node is a reference node or is connected to a row or column edge: true of the results of @, tensor
      products and traces, whose reference nodes are all their nodes *)
  Definition linked s q (ns : list nid) : Prop :=
    forall m, In m ns -> In m (q_ref q) \/ exists e n, In e (q_out q ++ q_in q) /\ on s n e /\ connected s n m.

  (** an identity with exactly one loose leg is not joined to an identity without loose legs *)
  Definition paired s q : Prop :=
    forall n m k j e, ident s q n -> ident s q m -> k < 2 -> j < 2 -> dangles s (n, k) ->
      slot s (n, 1 - k) = Some e -> slot s (m, j) = Some e -> dangles s (m, 1 - j).

  (** [phi] renames the loose ends of [ns] in [s], which are the edges of [q], to those of [ns'] in [s'], and the two
      networks have the same values *)
  Record reduced s q (ns : list nid) (s' : st) (ns' : list nid) (phi : eid -> eid) : Prop := {
    rd_wf : wf s';
    rd_nodup : NoDup ns';
    rd_node : forall n, In n ns' -> is_node s' n;
    rd_closed : forall n m e, In n ns' -> on s' n e -> on s' m e -> In m ns';
    rd_inj : forall e f, In e (q_edges q) -> In f (q_edges q) -> phi e = phi f -> e = f;
    rd_open : forall x, (exists n, In n ns' /\ open_on s' n x) <-> exists e, In e (q_edges q) /\ phi e = x;
    rd_dim : forall e, In e (q_edges q) -> edim s' (phi e) = edim s e;
    rd_value : forall a b, (forall e, In e (q_edges q) -> a e < edim s e) -> (forall e, In e (q_edges q) -> b (phi e) = a e) ->
      netval s ns a = netval s' ns' b;
    (* no node but identities is removed, no tensor is changed, and what is added is new *)
    rd_plain : forall n, In n ns -> ~ ident s q n -> In n ns';
    rd_from : forall n, In n ns' -> In n ns \/ ~ is_node s n;
    rd_tensor : forall n d, s_nodes s n = Some d -> exists d', s_nodes s' n = Some d' /\ n_t d' = n_t d /\ n_names d' = n_names d;
    (* the identities left over have two loose legs *)
    rd_ident : forall n, In n ns' -> ident s q n -> dangles s' (n, 0) /\ dangles s' (n, 1);
    (* other networks are left alone *)
    rd_out : forall n, is_node s n -> ~ In n ns -> s_nodes s' n = s_nodes s n;
    rd_edges : forall e, e < s_ne s -> s_edges s' e = s_edges s e
  }.

  (** [q'] in [s'] is the same operator as [q] in [s] *)
  Record same_oper s q (ns : list nid) (s' : st) q' (ns' : list nid) : Prop := {
    so_wf : wf s';
    so_oper : oper s' q' ns';
    so_rows : rows s' q' = rows s q;
    so_cols : cols s' q' = cols s q;
    so_ign : map (edim s') (q_ign q') = map (edim s) (q_ign q);
    so_entry : forall i j g, valid i (rows s q) -> valid j (cols s q) -> valid g (map (edim s) (q_ign q)) ->
      entry s' ns' q' i j g = entry s ns q i j g;
    so_out : forall n, is_node s n -> ~ In n ns -> s_nodes s' n = s_nodes s n
  }.
  (** the CopyNodes with two legs are not connected to anything *)
  Definition no_inner_identity s q : Prop := forall n, ident s q n -> dangles s (n, 0) /\ dangles s (n, 1).
  (** an order for the axes of the result: all the edges of the operator, each once *)
  Definition axis_order q (o : list eid) : Prop := Permutation o (q_edges q).
  (** what [simplify] returns *)
  Record simplified s q (ns : list nid) (s' : st) (q' : quop) (ns' : list nid) (dd : list (eid * eid)) (phi : eid -> eid) : Prop := {
    sm_same : same_oper s q ns s' q' ns';
    sm_copies : copies s' q';
    sm_ident : no_inner_identity s' q';
    sm_reduced : reduced s q ns s' ns' phi;
    sm_out : q_out q' = map phi (q_out q);
    sm_in : q_in q' = map phi (q_in q);
    sm_ign : q_ign q' = map phi (q_ign q);
    sm_dict : forall e, In e (q_edges q) -> dget dd e = Some (phi e)
  }.
  (** what [contract] returns: an operator of one node whose tensor has the axes [o] *)
  Record contracted s q (ns : list nid) (order : list eid) (s' : st) (q' : quop) (N : nid) : Prop := {
    cn_same : same_oper s q ns s' q' [N];
    cn_ref : q_ref q' = [N];
    cn_node : exists nd o, s_nodes s' N = Some nd /\ axis_order q o /\ (order <> [] -> o = order) /\ shape (n_t nd) = map (edim s) o /\
      forall a, (forall e, In e (q_edges q) -> a e < edim s e) -> elt (n_t nd) (map a o) = netval s ns a
  }.
  (** [T] has the axes [o] and the values of the network *)
  Definition evaluated s q (ns : list nid) (o : list eid) (T : tensor R) : Prop :=
    shape T = map (edim s) o /\ forall a, (forall e, In e (q_edges q) -> a e < edim s e) -> elt T (map a o) = netval s ns a.
End QuantumElimSpec.
