(** * Graph: the Node/Edge object graph (tensornetwork/network_components.py and
    network_operations.py), as a heap of nodes and edges.

    Modelling choices (see DESIGN.md):
    - python objects are heap cells addressed by natural numbers; allocation takes the next
      unused address; object identity is address equality;
    - a call is a function [st -> st * option A]: the new heap, and [None] when the call
      raises an exception (the heap still shows what had been mutated before the raise);
    - an edge keeps [_nodes], [_axes] and [is_disabled] ([_is_dangling] is "no second node");
      edge and node display names are dropped, axis names are kept ([str(i)] is the number i);
    - all nodes have the same backend, whose tensordot/trace/... are the arrays of Tensor.v;
    - the iteration order of a python [set] is an arbitrary function [iter]. *)
From Verif Require Import Prelude Algebra Tensor Einsum.
Set Implicit Arguments.
Unset Strict Implicit.

Notation eid := nat (only parsing).
Notation nid := nat (only parsing).

(** network_components.py 963-1038: Edge.__init__ / disable *)
Record edge := Edge {
  e_n1 : nid;                     (* _nodes[0] *)
  e_a1 : nat;                     (* _axes[0] *)
  e_2 : option (nid * nat);       (* (_nodes[1], _axes[1]); None = dangling *)
  e_dis : bool                    (* is_disabled *)
}.

(** the (node, axis) pairs an edge points to *)
Definition ends (e : edge) : list (nid * nat) :=
  (e_n1 e, e_a1 e) :: match e_2 e with Some p => [p] | None => [] end.

Definition is_dangling (e : edge) : bool := match e_2 e with None => true | Some _ => false end.

(** replace the k-th entry of a python list *)
Fixpoint replace_nth {A} (k : nat) (x : A) (l : list A) : list A :=
  match l, k with
  | [], _ => []
  | _ :: r, 0 => x :: r
  | y :: r, S k' => y :: replace_nth k' x r
  end.

(** insertion sort, python's [sorted] on integers *)
Fixpoint insert_nat (x : nat) (l : list nat) : list nat :=
  match l with
  | [] => [x]
  | y :: r => if Nat.leb x y then x :: y :: r else y :: insert_nat x r
  end.
Definition sort_nat (l : list nat) : list nat := fold_right insert_nat [] l.

Fixpoint nodupb (l : list nat) : bool :=
  match l with [] => true | x :: r => negb (mem x r) && nodupb r end.

Section Graph.
  Context {R : csr}.
  (** order in which python iterates over a set given by its elements *)
  Variable iter : list nat -> list nat.

  (** network_components.py 53-102 (AbstractNode.__init__), 567-582 (Node.__init__) *)
  Record node := Node { n_t : tensor R; n_edges : list eid; n_names : list nat }.

  Record st := St {
    s_nodes : nid -> option node;
    s_edges : eid -> option edge;
    s_nn : nid;     (* next unused node address *)
    s_ne : eid      (* next unused edge address *)
  }.

  Definition empty_st : st := St (fun _ => None) (fun _ => None) 0 0.

  (** ** The exception/state monad *)
  Definition M (A : Type) := st -> st * option A.
  Definition ret {A} (x : A) : M A := fun s => (s, Some x).
  Definition fail {A} : M A := fun s => (s, None).
  Definition bind {A B} (m : M A) (f : A -> M B) : M B :=
    fun s => let (s', r) := m s in match r with Some x => f x s' | None => (s', None) end.
  Notation "x <- m ;; k" := (bind m (fun x => k)) (at level 61, m at next level, right associativity).
  Notation "m ;;; k" := (bind m (fun _ => k)) (at level 61, right associativity).
  Definition guard (b : bool) : M unit := if b then ret tt else fail.

  Definition get_node (n : nid) : M node := fun s => (s, s_nodes s n).
  (** attribute access on a disabled edge raises (1042-1047, 1108-1124) *)
  Definition get_edge (e : eid) : M edge :=
    fun s => (s, match s_edges s e with Some ed => if e_dis ed then None else Some ed | None => None end).
  Definition set_node (n : nid) (x : node) : M unit :=
    fun s => (St (upd Nat.eq_dec (s_nodes s) n (Some x)) (s_edges s) (s_nn s) (s_ne s), Some tt).
  Definition set_edge (e : eid) (x : edge) : M unit :=
    fun s => (St (s_nodes s) (upd Nat.eq_dec (s_edges s) e (Some x)) (s_nn s) (s_ne s), Some tt).
  Definition alloc_edge (x : edge) : M eid :=
    fun s => (St (s_nodes s) (upd Nat.eq_dec (s_edges s) (s_ne s) (Some x)) (s_nn s) (S (s_ne s)), Some (s_ne s)).
  Definition alloc_node (x : node) : M nid :=
    fun s => (St (upd Nat.eq_dec (s_nodes s) (s_nn s) (Some x)) (s_edges s) (S (s_nn s)) (s_ne s), Some (s_nn s)).
  (** address the next allocation will use: [self] inside __init__ *)
  Definition next_node : M nid := fun s => (s, Some (s_nn s)).

  (** [for x in l: body] *)
  Fixpoint mfor {A} (l : list A) (body : A -> M unit) : M unit :=
    match l with [] => ret tt | x :: r => body x ;;; mfor r body end.

  (** ** Nodes *)

  (** dangling edges for axes i, i+1, ..., i+k-1 of node n *)
  Fixpoint alloc_edges (n : nid) (i k : nat) : M (list eid) :=
    match k with
    | 0 => ret []
    | S k' => e <- alloc_edge (Edge n i None false) ;; es <- alloc_edges n (S i) k' ;; ret (e :: es)
    end.

  (** Node(tensor, axis_names=...) (53-102, 567-582): one fresh dangling edge per axis.
      add_axis_names (131-152) rejects repeated or missing names. *)
  Definition new_node (t : tensor R) (names : option (list nat)) : M nid :=
    guard (match names with None => true | Some l => nodupb l && Nat.eqb (length l) (rank t) end) ;;;
    n <- next_node ;;
    es <- alloc_edges n 0 (rank t) ;;
    alloc_node (Node t es (match names with None => seq 0 (rank t) | Some l => l end)).

  (** AbstractNode.add_edge (154-177) *)
  Definition add_edge (n : nid) (e : eid) (ax : nat) (override : bool) : M unit :=
    nd <- get_node n ;;
    guard (Nat.ltb ax (rank (n_t nd))) ;;;
    match nth_error (n_edges nd) ax with
    | None => fail                                          (* IndexError *)
    | Some old =>
        oe <- (fun s => (s, s_edges s old)) ;;
        guard (is_dangling oe || override) ;;;
        set_node n (Node (n_t nd) (replace_nth ax e (n_edges nd)) (n_names nd))
    end.

  (** Edge.update_axis (1083-1106) *)
  Definition update_axis (e : eid) (old : nid * nat) (new : nid * nat) : M unit :=
    ed <- get_edge e ;;
    if Nat.eqb (e_a1 ed) (snd old) && Nat.eqb (e_n1 ed) (fst old)
    then set_edge e (Edge (fst new) (snd new) (e_2 ed) false)
    else match e_2 ed with
         | Some (n2, a2) =>
             if Nat.eqb a2 (snd old) && Nat.eqb n2 (fst old)
             then set_edge e (Edge (e_n1 ed) (e_a1 ed) (Some new) false)
             else fail
         | None => fail
         end.

  (** Edge.disable (1032-1034) *)
  Definition disable_edge (e : eid) : M unit :=
    fun s => match s_edges s e with
             | Some ed => set_edge e (Edge (e_n1 ed) (e_a1 ed) (e_2 ed) true) s
             | None => (s, None)
             end.

  (** AbstractNode.fresh_edges (524-532): every axis gets a new dangling edge; [m] is the number of
      axis names, an axis without a name is an IndexError *)
  Fixpoint fresh_edges_from (n : nid) (m i k : nat) : M unit :=
    match k with
    | 0 => ret tt
    | S k' => guard (Nat.ltb i m) ;;; e <- alloc_edge (Edge n i None false) ;; add_edge n e i true ;;; fresh_edges_from n m (S i) k'
    end.
  Definition fresh_edges (n : nid) : M unit :=
    nd <- get_node n ;;
    fresh_edges_from n (match n_names nd with [] => rank (n_t nd) | l => length l end) 0 (length (n_edges nd)).

  (** AbstractNode.get_edge / node[axis] (329-331) *)
  Definition edge_of (n : nid) (ax : nat) : M eid :=
    nd <- get_node n ;;
    match nth_error (n_edges nd) ax with Some e => ret e | None => fail end.

  (** Edge.dimension (1148-1150) *)
  Definition edge_dim (e : eid) : M nat :=
    ed <- get_edge e ;; nd <- get_node (e_n1 ed) ;;
    match nth_error (shape (n_t nd)) (e_a1 ed) with Some d => ret d | None => fail end.

  (** AbstractNode.get_axis_number (304-312) for a name *)
  Definition axis_of_name (n : nid) (name : nat) : M nat :=
    nd <- get_node n ;;
    if mem name (n_names nd) then ret (nindex name (n_names nd)) else fail.

  (** AbstractNode.reorder_axes (255-288).  The set test together with np.transpose's own test
      accepts exactly the permutations. *)
  Fixpoint reorder_loop (n : nid) (es : list eid) (i : nat) (perm : list nat) : M unit :=
    match perm with
    | [] => ret tt
    | p :: r =>
        match nth_error es p with
        | None => fail
        | Some e => update_axis e (n, p) (n, i) ;;; reorder_loop n es (S i) r
        end
    end.
  (** 273-288 and 246-253: tensor and edges are assigned, then the axis names are permuted
      (IndexError when there are fewer names than axes) *)
  Definition finish_reorder (n : nid) (t : tensor R) (es names perm : list nat) : M unit :=
    set_node n (Node t es names) ;;;
    guard (forallb (fun i => Nat.ltb i (length names)) perm) ;;;
    set_node n (Node t es (gather 0 names perm)).
  Definition reorder_axes (n : nid) (perm : list nat) : M unit :=
    nd <- get_node n ;;
    guard (is_permb (length (n_edges nd)) perm && Nat.eqb (rank (n_t nd)) (length (n_edges nd))) ;;;
    reorder_loop n (n_edges nd) 0 perm ;;;
    finish_reorder n (transpose (n_t nd) perm) (gather 0 (n_edges nd) perm) (n_names nd) perm.

  (** AbstractNode.reorder_edges (205-253) *)
  Definition is_trace_edge (ed : edge) : bool :=
    match e_2 ed with Some (n2, _) => Nat.eqb (e_n1 ed) n2 | None => false end.
  Fixpoint check_no_trace (es : list eid) : M unit :=
    match es with
    | [] => ret tt
    | e :: r => ed <- get_edge e ;; guard (negb (is_trace_edge ed)) ;;; check_no_trace r
    end.
  Definition reorder_edges (n : nid) (order : list eid) : M unit :=
    nd <- get_node n ;;
    guard (forallb (fun e => mem e (n_edges nd)) order) ;;;
    guard (forallb (fun e => mem e order) (n_edges nd)) ;;;
    check_no_trace order ;;;
    let perm := map (fun e => nindex e (n_edges nd)) order in
    reorder_loop n (n_edges nd) 0 perm ;;;
    guard (is_permb (rank (n_t nd)) perm && Nat.eqb (rank (n_t nd)) (length (n_edges nd))) ;;;
    finish_reorder n (transpose (n_t nd) perm) order (n_names nd) perm.

  (** ** Connections *)

  (** connect (1939-1968) *)
  Definition connect (e1 e2 : eid) : M eid :=
    d1 <- get_edge e1 ;; d2 <- get_edge e2 ;;
    guard (is_dangling d1 && is_dangling d2) ;;;
    guard (negb (Nat.eqb e1 e2)) ;;;
    m1 <- edge_dim e1 ;; m2 <- edge_dim e2 ;;
    guard (Nat.eqb m1 m2) ;;;
    e <- alloc_edge (Edge (e_n1 d1) (e_a1 d1) (Some (e_n1 d2, e_a1 d2)) false) ;;
    add_edge (e_n1 d1) e (e_a1 d1) true ;;;
    add_edge (e_n1 d2) e (e_a1 d2) true ;;;
    ret e.

  (** Edge.disconnect (1233-1262): the old edge object is left as it is *)
  Definition disconnect (e : eid) : M (eid * eid) :=
    ed <- get_edge e ;;
    match e_2 ed with
    | None => fail
    | Some (n2, a2) =>
        f1 <- alloc_edge (Edge (e_n1 ed) (e_a1 ed) None false) ;;
        f2 <- alloc_edge (Edge n2 a2 None false) ;;
        add_edge (e_n1 ed) f1 (e_a1 ed) true ;;;
        add_edge n2 f2 a2 true ;;;
        ret (f1, f2)
    end.

  (** set(edge.get_nodes()) == {n1, n2}; a disabled edge has nodes [None, None] *)
  Definition joins (ed : edge) (n1 n2 : nid) : bool :=
    negb (e_dis ed) &&
    match e_2 ed with
    | None => false
    | Some (m2, _) =>
        (Nat.eqb (e_n1 ed) n1 && Nat.eqb m2 n2) || (Nat.eqb (e_n1 ed) n2 && Nat.eqb m2 n1)
    end.
  (** get_shared_edges (1275-1293): a set, enumerated in the order [iter] *)
  Definition shared_list (s : st) (n1 n2 : nid) : list eid :=
    match s_nodes s n1 with
    | None => []
    | Some nd =>
        nodup Nat.eq_dec
          (filter (fun e => match s_edges s e with Some ed => joins ed n1 n2 | None => false end) (n_edges nd))
    end.
  Definition get_shared_edges (n1 n2 : nid) : M (list eid) :=
    _ <- get_node n1 ;; fun s => (s, Some (iter (shared_list s n1 n2))).

  (** ** Contraction *)

  (** _remove_edges (1734-1799): the loop over one node's edges; returns the next axis number
      and the edges kept.  [i] is the position in the old node, [k] the next axis of the new node. *)
  Fixpoint move_kept (cut : list eid) (old new : nid) (i k : nat) (es : list eid) : M (list eid) :=
    match es with
    | [] => ret []
    | e :: r =>
        if mem e cut then move_kept cut old new (S i) k r
        else update_axis e (old, i) (new, k) ;;; kept <- move_kept cut old new (S i) (S k) r ;; ret (e :: kept)
    end.
  Fixpoint add_all (n : nid) (i : nat) (es : list eid) (override : bool) : M unit :=
    match es with
    | [] => ret tt
    | e :: r => add_edge n e i override ;;; add_all n (S i) r override
    end.
  (** the up-front checks 1756-1770 *)
  Fixpoint check_cut (cut : list eid) (n1 n2 : nid) : M unit :=
    match cut with
    | [] => ret tt
    | e :: r => ed <- get_edge e ;; guard (joins ed n1 n2) ;;; check_cut r n1 n2
    end.
  Definition remove_edges (cut : list eid) (n1 n2 new : nid) : M unit :=
    guard (negb (Nat.eqb n1 n2)) ;;;
    d1 <- get_node n1 ;; d2 <- get_node n2 ;;
    check_cut cut n1 n2 ;;;
    k1 <- move_kept cut n1 new 0 0 (n_edges d1) ;;
    k2 <- move_kept cut n2 new 0 (length k1) (n_edges d2) ;;
    add_all new 0 (k1 ++ k2) false ;;;
    fresh_edges n1 ;;; fresh_edges n2 ;;;
    mfor cut disable_edge.

  (** _remove_trace_edge (1685-1731): axis numbers drop by the number of removed axes below.
      The two [if]s of the loop body; [nd0] is the traced node. *)
  Definition reduce_axis (x y a : nat) : nat :=
    a - (if Nat.ltb x a then 1 else 0) - (if Nat.ltb y a then 1 else 0).
  Definition shift_edge (e : eid) (nd0 new : nid) (x y : nat) : M unit :=
    ed <- get_edge e ;;
    let p1 := if Nat.eqb (e_n1 ed) nd0 then (new, reduce_axis x y (e_a1 ed)) else (e_n1 ed, e_a1 ed) in
    let p2 := match e_2 ed with
              | Some (n2, a2) => if Nat.eqb n2 nd0 then Some (new, reduce_axis x y a2) else Some (n2, a2)
              | None => None
              end in
    set_edge e (Edge (fst p1) (snd p1) p2 false).
  Definition remove_trace_edge (e : eid) (new : nid) : M unit :=
    ed <- get_edge e ;;
    match e_2 ed with
    | None => fail
    | Some (n2, a2) =>
        guard (Nat.eqb (e_n1 ed) n2) ;;;
        nd <- get_node (e_n1 ed) ;;
        let x := Nat.min (e_a1 ed) a2 in
        let y := Nat.max (e_a1 ed) a2 in
        let kept := gather 0 (n_edges nd) (free_axes (length (n_edges nd)) [x; y]) in
        mfor (nodup Nat.eq_dec kept) (fun f => shift_edge f (e_n1 ed) new x y) ;;;
        add_all new 0 kept false ;;;
        fresh_edges (e_n1 ed) ;;;
        disable_edge e
    end.

  (** _contract_trace (1802-1831): the two axes are moved last, then np.trace over the last two *)
  Definition contract_trace (e : eid) : M nid :=
    ed <- get_edge e ;;
    match e_2 ed with
    | None => fail
    | Some (n2, a2) =>
        guard (Nat.eqb (e_n1 ed) n2) ;;;
        nd <- get_node (e_n1 ed) ;;
        let x := Nat.min (e_a1 ed) a2 in
        let y := Nat.max (e_a1 ed) a2 in
        let r := rank (n_t nd) in
        let t := trace2 (transpose (n_t nd) (free_axes r [x; y] ++ [x; y])) (r - 2) (r - 1) in
        new <- new_node t None ;;
        remove_trace_edge e new ;;;
        ret new
    end.

  (** contract (1834-1885) *)
  Definition contract (e : eid) (names : option (list nat)) : M nid :=
    ed <- get_edge e ;;
    match e_2 ed with
    | None => fail
    | Some (n2, a2) =>
        if Nat.eqb (e_n1 ed) n2 then contract_trace e
        else
          d1 <- get_node (e_n1 ed) ;; d2 <- get_node n2 ;;
          new <- new_node (tensordot (n_t d1) (n_t d2) [e_a1 ed] [a2]) names ;;
          remove_edges [e] (e_n1 ed) n2 new ;;;
          ret new
    end.

  (** outer_product (2127-2186); multiplying by a rank-0 array equals the outer product *)
  Fixpoint move_all (old new : nid) (i off : nat) (es : list eid) : M unit :=
    match es with
    | [] => ret tt
    | e :: r => update_axis e (old, i) (new, i + off) ;;; move_all old new (S i) off r
    end.
  Definition outer_product (n1 n2 : nid) (names : option (list nat)) : M nid :=
    d1 <- get_node n1 ;; d2 <- get_node n2 ;;
    new <- new_node (outer (n_t d1) (n_t d2)) names ;;
    move_all n1 new 0 0 (n_edges d1) ;;;
    move_all n2 new 0 (rank (n_t d1)) (n_edges d2) ;;;
    add_all new 0 (n_edges d1 ++ n_edges d2) true ;;;
    fresh_edges n1 ;;; fresh_edges n2 ;;;
    ret new.

  (** ** Flattening (1332-1364, 1367-1440) *)
  Definition sum_nat (l : list nat) : nat := fold_right Nat.add 0 l.

  Definition edge_set_is (ed : edge) (p : nid) (q : option nid) : bool :=
    match e_2 ed, q with
    | None, None => Nat.eqb (e_n1 ed) p
    | Some (m, _), Some q' =>
        (Nat.eqb (e_n1 ed) p && Nat.eqb m q') || (Nat.eqb (e_n1 ed) q' && Nat.eqb m p)
    | _, _ => false
    end.
  Fixpoint check_same_nodes (p : nid) (q : option nid) (es : list eid) : M unit :=
    match es with
    | [] => ret tt
    | e :: r => ed <- get_edge e ;; guard (edge_set_is ed p q) ;;; check_same_nodes p q r
    end.

  (** the body of the loop 1414-1437 for one node: returns the new dangling edge *)
  Definition flatten_node (n : nid) (es : list eid) : M eid :=
    nd <- get_node n ;;
    guard (forallb (fun e => mem e (n_edges nd)) es) ;;;
    let back := map (fun e => nindex e (n_edges nd)) es in
    let front := free_axes (length (n_edges nd)) back in
    reorder_axes n (front ++ back) ;;;
    nd' <- get_node n ;;
    let k := length front in
    let s := shape (n_t nd') in
    let t := reshape (n_t nd') (firstn k s ++ [nprod (skipn k s)]) in
    e <- alloc_edge (Edge n k None false) ;;
    (* 1434-1437: axis names of the node before reordering, cut to the new length *)
    set_node n (Node t (firstn k (n_edges nd') ++ [e]) (n_names nd')) ;;;
    guard (Nat.leb (S k) (length (n_names nd))) ;;;
    set_node n (Node t (firstn k (n_edges nd') ++ [e]) (firstn (S k) (n_names nd))) ;;;
    ret e.

  Definition flatten_trace_edges (es : list eid) : M eid :=
    match es with
    | [] => fail
    | e0 :: _ =>
        ed0 <- get_edge e0 ;;
        let n := e_n1 ed0 in
        nd <- get_node n ;;
        pairs <- (fix go (l : list eid) : M (list (nat * nat)) :=
                    match l with
                    | [] => ret []
                    | e :: r =>
                        ed <- get_edge e ;;
                        match e_2 ed with
                        | None => fail
                        | Some (_, a2) => ps <- go r ;; ret ((Nat.min (e_a1 ed) a2, Nat.max (e_a1 ed) a2) :: ps)
                        end
                    end) es ;;
        let back := map fst pairs ++ map snd pairs in
        let front := free_axes (length (n_edges nd)) back in
        let newdim := nprod (map (fun p => nth (fst p) (shape (n_t nd)) 0) pairs) in
        reorder_axes n (front ++ back) ;;;
        nd' <- get_node n ;;
        let k := length front in
        let t := reshape (n_t nd') (firstn k (shape (n_t nd')) ++ [newdim; newdim]) in
        e1 <- alloc_edge (Edge n k None false) ;;
        e2 <- alloc_edge (Edge n (S k) None false) ;;
        set_node n (Node t (firstn k (n_edges nd') ++ [e1; e2]) (n_names nd')) ;;;
        e <- connect e1 e2 ;;
        mfor es disable_edge ;;;
        ret e
    end.

  Definition flatten_edges (es : list eid) : M eid :=
    match es with
    | [] => fail
    | [e] => get_edge e ;;; ret e
    | e0 :: _ =>
        ed0 <- get_edge e0 ;;
        let p := e_n1 ed0 in
        match e_2 ed0 with
        | None =>
            check_same_nodes p None es ;;;
            e <- flatten_node p es ;;
            mfor es disable_edge ;;;
            ret e
        | Some (q, _) =>
            check_same_nodes p (Some q) es ;;;
            if Nat.eqb p q then flatten_trace_edges es
            else
              match iter [p; q] with
              | [u; v] =>
                  f1 <- flatten_node u es ;;
                  f2 <- flatten_node v es ;;
                  mfor es disable_edge ;;;
                  connect f1 f2
              | _ => fail
              end
        end
    end.

  (** contract_between (1984-2095) *)
  Definition orient (n1 : nid) (s : st) (e : eid) : nat * nat :=
    match s_edges s e with
    | Some ed => match e_2 ed with
                 | Some (_, a2) => if Nat.eqb (e_n1 ed) n1 then (e_a1 ed, a2) else (a2, e_a1 ed)
                 | None => (0, 0)
                 end
    | None => (0, 0)
    end.
  (** the positions in output_edge_order that touch node1 / node2 (2050-2064) *)
  Fixpoint classify (n1 n2 : nid) (shared : list eid) (i : nat) (order : list eid) : M (list nat * list nat) :=
    match order with
    | [] => ret ([], [])
    | e :: r =>
        guard (negb (mem e shared)) ;;;
        ed <- (fun s => (s, s_edges s e)) ;;
        let ns := if e_dis ed then [] else map fst (ends ed) in
        if mem n1 ns then q <- classify n1 n2 shared (S i) r ;; ret (i :: fst q, snd q)
        else if mem n2 ns then q <- classify n1 n2 shared (S i) r ;; ret (fst q, i :: snd q)
        else fail
    end.
  (** np.mean(a) > np.mean(b) for non-empty lists *)
  Definition mean_gt (a b : list nat) : bool :=
    Nat.ltb (sum_nat b * length a) (sum_nat a * length b).

  Definition contract_between (n1 n2 : nid) (allow_outer : bool) (order : list eid)
             (names : option (list nat)) : M nid :=
    d1 <- get_node n1 ;; d2 <- get_node n2 ;;
    shared <- get_shared_edges n1 n2 ;;
    new <-
      (if Nat.eqb n1 n2 then
         match shared with
         | [] => fail
         | _ => e <- flatten_edges shared ;; contract e None
         end
       else
         match shared with
         | [] => guard allow_outer ;;; outer_product n1 n2 None
         | _ =>
             axes <- (fun s => (s, Some (map (orient n1 s) shared))) ;;
             swap <- (match order with
                      | [] => ret false
                      | _ => q <- classify n1 n2 shared 0 order ;;
                             ret (negb (Nat.eqb (length (fst q)) 0) && negb (Nat.eqb (length (snd q)) 0)
                                  && mean_gt (fst q) (snd q))
                      end) ;;
             let ax1 := if swap : bool then map snd axes else map fst axes in
             let ax2 := if swap : bool then map fst axes else map snd axes in
             let ind := map (fun l => nindex l ax1) (sort_nat ax1) in
             let u := if swap : bool then n2 else n1 in
             let v := if swap : bool then n1 else n2 in
             let du := if swap : bool then d2 else d1 in
             let dv := if swap : bool then d1 else d2 in
             new <- new_node (tensordot (n_t du) (n_t dv) (gather 0 ax1 ind) (gather 0 ax2 ind)) None ;;
             remove_edges shared u v new ;;;
             ret new
         end) ;;
    (match order with [] => ret tt | _ => reorder_edges new order end) ;;;
    (match names with
     | None => ret tt
     | Some l =>
         nd <- get_node new ;;
         guard (nodupb l && Nat.eqb (length l) (rank (n_t nd))) ;;;
         set_node new (Node (n_t nd) (n_edges nd) l)
     end) ;;;
    ret new.

  (** contract_parallel (1923-1936) *)
  Definition contract_parallel (e : eid) : M nid :=
    ed <- get_edge e ;;
    match e_2 ed with
    | None => fail
    | Some (n2, _) => contract_between (e_n1 ed) n2 false [] None
    end.

  (** ** Splitting an edge (1495-1536, 1538-1633) *)
  (** dangling edges for the new axes, appended to the node *)
  Definition split_node_axis (n : nid) (e : eid) (sh : list nat) (nms : option (list nat)) : M (list eid) :=
    nd <- get_node n ;;
    guard (mem e (n_edges nd)) ;;;
    let back := [nindex e (n_edges nd)] in
    let front := free_axes (length (n_edges nd)) back in
    reorder_axes n (front ++ back) ;;;
    nd' <- get_node n ;;
    let k := length front in
    let t := reshape (n_t nd') (firstn k (shape (n_t nd')) ++ sh) in
    es <- alloc_edges n k (length sh) ;;
    set_node n (Node t (firstn k (n_edges nd') ++ es) (n_names nd')) ;;;
    guard (Nat.leb k (length (n_names nd))) ;;;
    let new_names := firstn k (n_names nd)
                     ++ match nms with Some l => l | None => seq k (length sh) end in
    guard (Nat.eqb (length new_names) (k + length sh)) ;;;
    set_node n (Node t (firstn k (n_edges nd') ++ es) new_names) ;;;
    ret es.

  Fixpoint connect_all (es fs : list eid) : M (list eid) :=
    match es, fs with
    | [], [] => ret []
    | e :: es', f :: fs' => g <- connect e f ;; gs <- connect_all es' fs' ;; ret (g :: gs)
    | _, _ => fail
    end.

  Definition split_trace_edge (e : eid) (sh : list nat) : M (list eid) :=
    ed <- get_edge e ;;
    match e_2 ed with
    | None => fail
    | Some (_, a2) =>
        let n := e_n1 ed in
        nd <- get_node n ;;
        let back := [Nat.min (e_a1 ed) a2; Nat.max (e_a1 ed) a2] in
        let front := free_axes (length (n_edges nd)) back in
        reorder_axes n (front ++ back) ;;;
        nd' <- get_node n ;;
        let k := length front in
        let t := reshape (n_t nd') (firstn k (shape (n_t nd')) ++ sh ++ sh) in
        es <- alloc_edges n k (length sh) ;;
        fs <- alloc_edges n (k + length sh) (length sh) ;;
        set_node n (Node t (firstn k (n_edges nd') ++ es ++ fs) (n_names nd')) ;;;
        gs <- connect_all es fs ;;
        disable_edge e ;;;
        ret gs
    end.

  Definition split_edge (e : eid) (sh : list nat) (nms : option (list nat)) : M (list eid) :=
    d <- edge_dim e ;;
    guard (Nat.eqb (nprod sh) d) ;;;
    match sh with
    | [_] => ret [e]
    | _ =>
        ed <- get_edge e ;;
        match e_2 ed with
        | None =>
            es <- split_node_axis (e_n1 ed) e sh nms ;;
            disable_edge e ;;;
            ret es
        | Some (q, _) =>
            if Nat.eqb (e_n1 ed) q then split_trace_edge e sh
            else
              match iter [e_n1 ed; q] with
              | [u; v] =>
                  es <- split_node_axis u e sh nms ;;
                  fs <- split_node_axis v e sh nms ;;
                  disable_edge e ;;;
                  connect_all es fs
              | _ => fail
              end
        end
    end.

  (** ** network_operations.py *)

  (** remove_node (106-127): returns (axis, newly dangling edge of the neighbour) *)
  Fixpoint remove_node_from (n : nid) (i k : nat) : M (list (nat * eid)) :=
    match k with
    | 0 => ret []
    | S k' =>
        e <- edge_of n i ;;
        ed <- get_edge e ;;
        if negb (is_dangling ed) && negb (is_trace_edge ed) then
          p <- disconnect e ;;
          f <- get_edge (fst p) ;;
          let d := if Nat.eqb (e_n1 f) n then snd p else fst p in
          rest <- remove_node_from n (S i) k' ;;
          ret ((i, d) :: rest)
        else remove_node_from n (S i) k'
    end.
  Definition remove_node (n : nid) : M (list (nat * eid)) :=
    nd <- get_node n ;; remove_node_from n 0 (length (n_names nd)).

  (** redirect_edge (986-1037) *)
  Definition redirect_edge (e : eid) (new old : nid) : M unit :=
    ed <- get_edge e ;;
    if negb (is_trace_edge ed) then
      if Nat.eqb (e_n1 ed) old then
        set_edge e (Edge new (e_a1 ed) (e_2 ed) false) ;;;
        add_edge new e (e_a1 ed) true ;;;
        f <- alloc_edge (Edge old (e_a1 ed) None false) ;;
        add_edge old f (e_a1 ed) true
      else
        match e_2 ed with
        | Some (n2, a2) =>
            guard (Nat.eqb n2 old) ;;;
            set_edge e (Edge (e_n1 ed) (e_a1 ed) (Some (new, a2)) false) ;;;
            add_edge new e a2 true ;;;
            f <- alloc_edge (Edge old a2 None false) ;;
            add_edge old f a2 true
        | None => fail
        end
    else
      match e_2 ed with
      | Some (_, a2) =>
          guard (Nat.eqb (e_n1 ed) old) ;;;
          set_edge e (Edge new (e_a1 ed) (Some (new, a2)) false) ;;;
          add_edge new e (e_a1 ed) true ;;;
          add_edge new e a2 true ;;;
          f <- alloc_edge (Edge old (e_a1 ed) (Some (old, a2)) false) ;;
          add_edge old f (e_a1 ed) true ;;;
          add_edge old f a2 true
      | None => fail
      end.

  (** ** Observation: the labelled network formed by a list of nodes *)
  Definition fac (s : st) (n : nid) : factor eid R :=
    match s_nodes s n with
    | Some nd => (n_t nd, n_edges nd)
    | None => (Tensor [] (fun _ => r1), [])
    end.
  Definition net_of (s : st) (S : list nid) : list (factor eid R) := map (fac s) S.
End Graph.
