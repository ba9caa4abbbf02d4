(** * GraphQuery: model of the query functions and compound operations of
    tensornetwork/network_components.py and network_operations.py *)
From Verif Require Import Prelude Algebra Tensor Einsum Graph.
Set Implicit Arguments.
Unset Strict Implicit.

Section GraphQuery.
  Context {R : csr}.
  Notation st := (@st R).
  Notation M := (@M R).
  Variable iter : list nat -> list nat.
  Notation "x <- m ;; k" := (bind m (fun x => k)) (at level 61, m at next level, right associativity).
  Notation "m ;;; k" := (bind m (fun _ => k)) (at level 61, right associativity).

  (** [for x in l: acc.append(f x)] *)
  Fixpoint mmap {A B} (f : A -> M B) (l : list A) : M (list B) :=
    match l with [] => ret [] | x :: r => y <- f x ;; ys <- mmap f r ;; ret (y :: ys) end.

  (** Edge.get_nodes (network_components.py:1079-1081) without [None]; also works on disabled edges *)
  Definition edge_nodes_raw (s : st) (e : eid) : list nid :=
    match s_edges s e with
    | Some ed => if e_dis ed then [] else map fst (ends ed)
    | None => []
    end.
  (** Edge.is_dangling (1150-1152): a stored flag, readable on disabled edges *)
  Definition edge_dangling (s : st) (e : eid) : bool :=
    match s_edges s e with Some ed => is_dangling ed | None => true end.

  (** AbstractNode.edges (393-399) of a node *)
  Definition node_edges (n : nid) : M (list eid) := nd <- get_node n ;; ret (n_edges nd).

  (** get_all_edges (network_operations.py:695-700): a set of edges *)
  Definition get_all_edges (ns : list nid) : M (list eid) :=
    ess <- mmap node_edges ns ;; ret (iter (nodup Nat.eq_dec (concat ess))).
  (** get_all_nodes (683-692): [edge.node1] of a disabled edge raises *)
  Definition get_all_nodes (es : list eid) : M (list nid) :=
    eds <- mmap (@get_edge R) es ;; ret (iter (nodup Nat.eq_dec (concat (map (fun ed => map fst (ends ed)) eds)))).
  (** AbstractNode.get_all_nondangling / get_all_dangling (network_components.py:337-343) and the
      functions of the same name (1316-1329) *)
  Definition get_all_nondangling (ns : list nid) : M (list eid) :=
    ess <- mmap node_edges ns ;; fun s => (s, Some (iter (nodup Nat.eq_dec (filter (fun e => negb (edge_dangling s e)) (concat ess))))).
  Definition get_all_dangling (ns : list nid) : M (list eid) :=
    ess <- mmap node_edges ns ;; fun s => (s, Some (filter (edge_dangling s) (concat ess))).
  (** get_subgraph_dangling (network_operations.py:703-720) *)
  Definition get_subgraph_dangling (ns : list nid) : M (list eid) :=
    es <- get_all_edges ns ;;
    fun s => (s, Some (filter (fun e => edge_dangling s e || negb (forallb (fun n => mem n ns) (edge_nodes_raw s e))) es)).
  (** get_parallel_edges (network_components.py:1303-1313): for a dangling edge [edge.node2] is None
      and get_shared_edges returns the dangling edges of node1 *)
  Definition get_parallel_edges (e : eid) : M (list eid) :=
    ed <- get_edge e ;;
    match e_2 ed with
    | Some (n2, _) => get_shared_edges iter (e_n1 ed) n2
    | None =>
        nd <- get_node (e_n1 ed) ;;
        fun s => (s, Some (iter (nodup Nat.eq_dec (filter (fun f =>
          match s_edges s f with
          | Some fd => negb (e_dis fd) && is_dangling fd && Nat.eqb (e_n1 fd) (e_n1 ed)
          | None => false
          end) (n_edges nd)))))
    end.
  (** get_neighbors (network_operations.py:823-846): in order of first appearance *)
  Fixpoint neighbors_from (n : nid) (seen : list nid) (es : list eid) : M (list nid) :=
    match es with
    | [] => ret seen
    | e :: r =>
        dang <- (fun s => (s, Some (edge_dangling s e))) ;;
        if dang : bool then neighbors_from n seen r
        else
          ed <- get_edge e ;;
          match e_2 ed with
          | None => fail
          | Some (n2, _) =>
              if Nat.eqb (e_n1 ed) n2 then neighbors_from n seen r
              else
                let m := if Nat.eqb (e_n1 ed) n then n2 else e_n1 ed in
                neighbors_from n (if mem m seen then seen else seen ++ [m]) r
          end
    end.
  Definition get_neighbors (n : nid) : M (list nid) := es <- node_edges n ;; neighbors_from n [] es.

  (** ** Reachability (network_operations.py:590-634) *)

  (** the body of the while loop: nodes of the edges of the popped node that were not seen before
      are appended to the queue and to the set *)
  Fixpoint push_new (seen queue : list nid) (ms : list nid) : list nid * list nid :=
    match ms with
    | [] => (seen, queue)
    | m :: r => if mem m seen then push_new seen queue r else push_new (seen ++ [m]) (queue ++ [m]) r
    end.
  (** [fuel] bounds the number of iterations; it is never exhausted (reachable_spec) *)
  Fixpoint reach_loop (fuel : nat) (seen queue : list nid) : M (list nid) :=
    match queue with
    | [] => ret seen
    | n :: q =>
        match fuel with
        | 0 => fail
        | S fuel' =>
            let seen1 := if mem n seen then seen else seen ++ [n] in
            es <- node_edges n ;;
            p <- (fun s => (s, Some (push_new seen1 q (flat_map (edge_nodes_raw s) es)))) ;;
            reach_loop fuel' (fst p) (snd p)
        end
    end.
  (** [reachable] of a collection of nodes, enumerated in the order of the set built at 626-633 *)
  Definition reachable (inputs : list nid) : M (list nid) :=
    match inputs with
    | [] => fail
    | _ => fun s => reach_loop (length inputs + s_nn s) [] (iter (nodup Nat.eq_dec inputs)) s
    end.
  (** 622-623: of one edge *)
  Definition reachable_edge (e : eid) : M (list nid) := ed <- get_edge e ;; reachable [e_n1 ed].

  (** check_connected (667-680) *)
  Definition check_connected (ns : list nid) : M unit :=
    match ns with
    | [] => fail
    | n :: _ => l <- reachable [n] ;; guard (forallb (fun m => mem m l) ns)
    end.
  (** check_correct (636-664), one edge at position i *)
  Definition check_edge (n : nid) (i : nat) (e : eid) : M unit :=
    ed <- get_edge e ;;
    guard (mem n (map fst (ends ed))) ;;;
    guard ((Nat.eqb (e_n1 ed) n && Nat.eqb (e_a1 ed) i)
           || match e_2 ed with Some (m, a) => Nat.eqb m n && Nat.eqb a i | None => false end).
  Fixpoint check_edges (n : nid) (i : nat) (es : list eid) : M unit :=
    match es with [] => ret tt | e :: r => check_edge n i e ;;; check_edges n (S i) r end.
  Definition check_correct (ns : list nid) (check_connections : bool) : M unit :=
    mfor ns (fun n => es <- node_edges n ;; check_edges n 0 es) ;;;
    if check_connections then check_connected ns else ret tt.

  (** ** Compound operations *)

  (** contract_trace_edges (network_operations.py:723-738): stops after the first trace edge, whose
      parallel edges are all trace edges of the node *)
  Fixpoint first_trace (n : nid) (es : list eid) : M nid :=
    match es with
    | [] => ret n
    | e :: r =>
        ed <- get_edge e ;;
        if is_trace_edge ed then contract_parallel iter e else first_trace n r
    end.
  Definition contract_trace_edges (n : nid) : M nid := es <- node_edges n ;; first_trace n es.

  (** outer_product_final_nodes (network_components.py:2098-2124) *)
  Fixpoint outer_fold (acc : nid) (ns : list nid) : M nid :=
    match ns with [] => ret acc | n :: r => p <- outer_product acc n None ;; outer_fold p r end.
  Definition outer_product_final_nodes (ns : list nid) (order : list eid) : M nid :=
    mfor ns (fun n => es <- node_edges n ;; fun s => guard (forallb (edge_dangling s) es) s) ;;;
    match ns with
    | [] => fail
    | n :: r => f <- outer_fold n r ;; reorder_edges f order ;;; ret f
    end.

  (** flatten_edges_between (1459-1477) *)
  Definition flatten_edges_between (n1 n2 : nid) : M (option eid) :=
    es <- get_shared_edges iter n1 n2 ;;
    match es with [] => ret None | _ => e <- flatten_edges iter es ;; ret (Some e) end.
  (** flatten_all_edges (1480-1492) *)
  Fixpoint flatten_each (es : list eid) : M (list eid) :=
    match es with
    | [] => ret []
    | e :: r =>
        dis <- (fun s => (s, Some (match s_edges s e with Some ed => e_dis ed | None => true end))) ;;
        if dis : bool then flatten_each r
        else
          ed <- get_edge e ;;
          match e_2 ed with
          | None => fail
          | Some (n2, _) =>
              f <- flatten_edges_between (e_n1 ed) n2 ;;
              fs <- flatten_each r ;;
              ret (match f with Some x => x :: fs | None => fs end)
          end
    end.
  Definition flatten_all_edges (ns : list nid) : M (list eid) :=
    es <- get_all_nondangling ns ;; flatten_each es.
End GraphQuery.
