(** * GraphProg: programs over the graph API

    User programs refer to edges as [node[axis]] (network_components.py 329-331), i.e. through
    the edge currently stored in a slot, never through an old edge object.  Definitions only. *)
From Verif Require Import Prelude Algebra Tensor Einsum Graph.
Set Implicit Arguments.
Unset Strict Implicit.

Section Prog.
  Context {R : csr}.
  Variable iter : list nat -> list nat.
  Notation st := (@st R).
  Notation M := (@M R).

  Definition port : Type := (nid * nat)%type.   (* node[axis] *)

  Fixpoint edges_of (ps : list port) : M (list eid) :=
    match ps with
    | [] => ret []
    | p :: r => bind (edge_of (fst p) (snd p)) (fun e => bind (edges_of r) (fun es => ret (e :: es)))
    end.

  (** One API call each: Node(...) (567-582), connect (1939-1968), disconnect (1971-1981),
      contract (1834-1885), contract_between (1984-2096), contract_parallel (1923-1936),
      outer_product (2127-2186), flatten_edges (1367-1440), split_edge (1538-1633),
      reorder_axes (255-288), reorder_edges (202-253), remove_node (network_operations.py 106-127). *)
  Inductive op :=
  | OpNode (t : tensor R) (names : option (list nat))
  | OpConnect (p q : port)
  | OpDisconnect (p : port)
  | OpContract (p : port) (names : option (list nat))
  | OpBetween (n1 n2 : nid) (allow_outer : bool) (order : list eid) (names : option (list nat))
  | OpParallel (p : port)
  | OpOuter (n1 n2 : nid) (names : option (list nat))
  | OpFlatten (ps : list port)
  | OpSplit (p : port) (sh : list nat) (names : option (list nat))
  | OpReorderAxes (n : nid) (perm : list nat)
  | OpReorderEdges (n : nid) (ps : list port)
  | OpRemove (n : nid).

  Definition void {A} (m : M A) : M unit := bind m (fun _ => ret tt).
  Definition at_port {A} (p : port) (f : eid -> M A) : M A := bind (edge_of (fst p) (snd p)) f.

  Definition exec_op (o : op) : M unit :=
    match o with
    | OpNode t names => void (new_node t names)
    | OpConnect p q => void (at_port p (fun e => at_port q (fun f => connect e f)))
    | OpDisconnect p => void (at_port p (@disconnect R))
    | OpContract p names => void (at_port p (fun e => contract e names))
    | OpBetween n1 n2 ao order names => void (contract_between iter n1 n2 ao order names)
    | OpParallel p => void (at_port p (contract_parallel iter))
    | OpOuter n1 n2 names => void (outer_product n1 n2 names)
    | OpFlatten ps => void (bind (edges_of ps) (flatten_edges iter))
    | OpSplit p sh names => void (at_port p (fun e => split_edge iter e sh names))
    | OpReorderAxes n perm => reorder_axes n perm
    | OpReorderEdges n ps => bind (edges_of ps) (reorder_edges n)
    | OpRemove n => void (remove_node n)
    end.

  (** a program is a sequence of calls none of which raised *)
  Fixpoint exec_ops (l : list op) : M unit :=
    match l with [] => ret tt | o :: r => bind (exec_op o) (fun _ => exec_ops r) end.

  (** ** Contraction schedules: calls replacing one or two nodes of a network by one *)
  Inductive cop :=
  | CEdge (p : port) (names : option (list nat))                                     (* contract *)
  | CBetween (n1 n2 : nid) (allow_outer : bool) (order : list eid) (names : option (list nat))
  | CParallel (p : port)
  | COuter (n1 n2 : nid) (names : option (list nat)).

  (** the nodes an edge joins *)
  Definition edge_nodes (e : eid) : M (list nid) :=
    bind (get_edge e) (fun ed => ret (e_n1 ed :: match e_2 ed with Some q => [fst q] | None => [] end)).

  (** performs the call; returns the nodes used up and the new node *)
  Definition exec_cop (c : cop) : M (list nid * nid) :=
    match c with
    | CEdge p names => at_port p (fun e => bind (edge_nodes e) (fun l => bind (contract e names) (fun N => ret (l, N))))
    | CBetween n1 n2 ao order names => bind (contract_between iter n1 n2 ao order names) (fun N => ret ([n1; n2], N))
    | CParallel p => at_port p (fun e => bind (edge_nodes e) (fun l => bind (contract_parallel iter e) (fun N => ret (l, N))))
    | COuter n1 n2 names => bind (guard (negb (Nat.eqb n1 n2))) (fun _ => bind (outer_product n1 n2 names) (fun N => ret ([n1; n2], N)))
    end.

  (** run a schedule on the node set S of a network *)
  Fixpoint schedule (l : list cop) (S : list nid) : M (list nid) :=
    match l with
    | [] => ret S
    | c :: r =>
        bind (exec_cop c) (fun x =>
          bind (guard (forallb (fun n => mem n S) (fst x))) (fun _ =>
            schedule r (snd x :: filter (fun n => negb (mem n (fst x))) S)))
    end.
End Prog.
