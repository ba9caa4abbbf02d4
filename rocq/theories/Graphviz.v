(** * Model of visualization/graphviz.py: to_graphviz *)
From Verif Require Import Prelude Algebra Tensor Graph.
Set Implicit Arguments.
Unset Strict Implicit.

(** The vertices written to the graphviz source: [str(id(node))] and ["{}_{}".format(id(node), i)].  The decimal digits of
    an id contain no underscore, so the strings are as different as these values. *)
Inductive vertex := VNode (n : nid) | VInvis (n : nid) (i : nat).

(** The calls of [graph.node] and [graph.edge], in order.  A label is a list of character codes; the flag of a node says
    whether its style is invisible. *)
Inductive stmt := SNode (v : vertex) (label : list nat) (invis : bool) | SEdge (v w : vertex) (label : list nat).

Section Graphviz.
  Context {R : csr}.
  Notation M := (@M R).
  Notation "x <- m ;; k" := (bind m (fun x => k)) (at level 61, m at next level, right associativity).
  Notation "m ;;; k" := (bind m (fun _ => k)) (at level 61, right associativity).

  (** [node.name] and [edge.name]: Graph.v does not keep the names of nodes and edges, so they are given here *)
  Variables (nname : nid -> list nat) (ename : eid -> list nat).
  (** [include_all_names] *)
  Variable all : bool.

  (** graphviz.py 43-46, 54-57: names that start with "__" (95 95) are dropped *)
  Definition label (name : list nat) : list nat :=
    if negb (match name with 95 :: 95 :: _ => true | _ => false end) || all then name else [].

  (** graphviz.py 42-47: the first loop over the nodes *)
  Fixpoint node_loop (ns : list nid) (g : list stmt) : M (list stmt) :=
    match ns with
    | [] => ret g
    | n :: r => get_node n ;;; node_loop r (g ++ [SNode (VNode n) (label (nname n)) false])
    end.

  (** graphviz.py 50-67: the edges of one node, from axis [i] on *)
  Fixpoint edge_loop (n : nid) (i : nat) (es seen : list eid) (g : list stmt) : M (list eid * list stmt) :=
    match es with
    | [] => ret (seen, g)
    | e :: r =>
        if mem e seen then edge_loop n (S i) r seen g
        else
          ed <- get_edge e ;;
          edge_loop n (S i) r (e :: seen)
            (g ++ match e_2 ed with
                  | None => [SNode (VInvis n i) [] true; SEdge (VInvis n i) (VNode n) (label (ename e))]
                  | Some (m, _) => [SEdge (VNode (e_n1 ed)) (VNode m) (label (ename e))]
                  end)
    end.

  (** graphviz.py 49-67: the second loop over the nodes *)
  Fixpoint all_edges (ns : list nid) (seen : list eid) (g : list stmt) : M (list stmt) :=
    match ns with
    | [] => ret g
    | n :: r => nd <- get_node n ;; sg <- edge_loop n 0 (n_edges nd) seen g ;; all_edges r (fst sg) (snd sg)
    end.

  (** graphviz.py 21-68.  [nodes] is iterated over twice: [first] and [second] are what the two loops see.  [g] is what the
      optional argument [graph] holds already. *)
  Definition to_graphviz_iter (first second : list nid) (g : list stmt) : M (list stmt) :=
    g1 <- node_loop first g ;; all_edges second [] g1.

  (** a list or a set gives its elements twice *)
  Definition to_graphviz (ns : list nid) (g : list stmt) : M (list stmt) := to_graphviz_iter ns ns g.

  (** an iterator (a generator, a [map], a [filter]) is used up by the first loop *)
  Definition to_graphviz_once (ns : list nid) (g : list stmt) : M (list stmt) := to_graphviz_iter ns [] g.
End Graphviz.
