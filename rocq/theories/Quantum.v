(** * Quantum: operators given by tensor networks (tensornetwork/quantum/quantum.py).

    An operator is an object holding lists of edges and sets of nodes of the heap; a set is a list of which only the
    members matter.  The four classes QuOperator, QuVector, QuAdjointVector and QuScalar differ in which of the two
    edge lists are empty (34-61), so one record models them all.  [q_cps] lists those nodes of the operator whose
    class is CopyNode: nodes of the heap carry a tensor and edges only. *)
From Verif Require Import Prelude Algebra Tensor Einsum Graph GraphQuery GraphCopy CopyTensor.
Set Implicit Arguments.
Unset Strict Implicit.

Record quop := Qu { q_out : list eid; q_in : list eid; q_ref : list nid; q_ign : list eid; q_cps : list nid }.

Section Quantum.
  Context {R : cjr}.
  Notation st := (@st R).
  Notation M := (@M R).
  (** the order in which a python set is traversed *)
  Variable iter : list nat -> list nat.
  Notation "x <- m ;; k" := (bind m (fun x => k)) (at level 61, m at next level, right associativity).
  Notation "m ;;; k" := (bind m (fun _ => k)) (at level 61, right associativity).

  (** dictionary access [d[k]], KeyError when missing *)
  Definition look (d : list (nat * nat)) (k : nat) : M nat := match dget d k with Some x => ret x | None => fail end.

  (** 221-225 [nodes] *)
  Definition q_nodes (q : quop) : M (list nid) :=
    ns <- get_all_nodes iter (q_out q ++ q_in q) ;; reachable iter (ns ++ q_ref q).

  (** 244-266 [check_network] *)
  Definition same_set (l l' : list nat) : bool := forallb (fun x => mem x l') l && forallb (fun x => mem x l) l'.
  Definition check_network (q : quop) : M unit :=
    (fun s => guard (forallb (edge_dangling s) (q_out q ++ q_in q ++ q_ign q)) s) ;;;
    ns <- q_nodes q ;;
    ds <- get_subgraph_dangling iter ns ;;
    guard (same_set (q_in q ++ q_out q ++ q_ign q) ds).

  (** 34-61 [quantum_constructor] with 163-195 [__init__] *)
  Definition construct (q : quop) : M quop :=
    guard (negb (match q_out q, q_in q, q_ref q with [], [], [] => true | _, _, _ => false end)) ;;;
    check_network q ;;; ret q.

  (** 86-104 [check_spaces]: zip after the comparison of the lengths *)
  Fixpoint check_dims (es fs : list eid) : M unit :=
    match es, fs with
    | e :: es', f :: fs' => m <- edge_dim e ;; n <- edge_dim f ;; guard (Nat.eqb m n) ;;; check_dims es' fs'
    | _, _ => ret tt
    end.
  Definition check_spaces (es fs : list eid) : M unit :=
    guard (Nat.eqb (length es) (length fs)) ;;; check_dims es fs.

  (** [copy(self.nodes, conjugate)].  CopyNode.copy (network_components.py:800-823) differs from Node.copy in two
      ways: it ignores [conjugate] (the entries are 0 and 1), and at a trace edge it makes an edge from axis [i] to
      [edge.axis2] with [i] the first axis met; when that is axis2 itself, the second add_edge raises, as the axis is
      no longer dangling.  Simplified: the exception is raised before anything is created. *)
  Definition back_trace (s : st) (n : nid) : bool :=
    match s_nodes s n with
    | Some nd => existsb (fun e => match s_edges s e with
                                   | Some ed => match e_2 ed with
                                                | Some (n2, a2) => Nat.eqb (e_n1 ed) n2 && Nat.ltb a2 (e_a1 ed)
                                                | None => false
                                                end
                                   | None => false
                                   end) (n_edges nd)
    | None => false
    end.
  Definition q_copy (q : quop) (conj : bool) : M (list (nid * nid) * list (eid * eid)) :=
    ns <- q_nodes q ;;
    (fun s => guard (forallb (fun n => negb (back_trace s n)) (filter (fun n => mem n ns) (q_cps q))) s) ;;;
    copy iter ns conj.
  (** the copies of CopyNodes are CopyNodes *)
  Definition cps_of (d : list (nid * nid)) (l : list nid) : list nid :=
    flat_map (fun n => match dget d n with Some N => [N] | None => [] end) l.

  (** 268-279 *)
  Definition adjoint (q : quop) : M quop :=
    dd <- q_copy q true ;;
    out' <- mmap (look (snd dd)) (q_in q) ;;
    in' <- mmap (look (snd dd)) (q_out q) ;;
    ref' <- mmap (look (fst dd)) (q_ref q) ;;
    ign' <- mmap (look (snd dd)) (q_ign q) ;;
    construct (Qu out' in' ref' ign' (cps_of (fst dd) (q_cps q))).

  (** 315-316: [edge_dict[e1] = edge_dict[e1] ^ edge_dict[e2]] *)
  Fixpoint trace_edges (ee : list (eid * eid)) (ps : list (eid * eid)) : M (list (eid * eid)) :=
    match ps with
    | [] => ret ee
    | (e1, e2) :: r => f1 <- look ee e1 ;; f2 <- look ee e2 ;; g <- connect f1 f2 ;; trace_edges ((e1, g) :: ee) r
    end.
  Definition at_index (l : list eid) (i : nat) : M eid := match nth_error l i with Some e => ret e | None => fail end.
  (** 293-328, for non-negative indices *)
  Definition partial_trace (q : quop) (ts : list nat) : M quop :=
    ot <- mmap (at_index (q_out q)) ts ;;
    it <- mmap (at_index (q_in q)) ts ;;
    check_spaces it ot ;;;
    dd <- q_copy q false ;;
    ee <- trace_edges (snd dd) (combine ot it) ;;
    out' <- mmap (look ee) (filter (fun e => negb (mem e ot)) (q_out q)) ;;
    in' <- mmap (look ee) (filter (fun e => negb (mem e it)) (q_in q)) ;;
    ign' <- mmap (look ee) (q_ign q) ;;
    construct (Qu out' in' (map snd (fst dd)) ign' (cps_of (fst dd) (q_cps q))).
  (** 281-283 *)
  Definition trace (q : quop) : M quop := partial_trace q (seq 0 (length (q_in q))).

  (** 349-350 *)
  Fixpoint join_edges (ee1 ee2 : list (eid * eid)) (es fs : list eid) : M unit :=
    match es, fs with
    | e :: es', f :: fs' => e' <- look ee1 e ;; f' <- look ee2 f ;; connect e' f' ;;; join_edges ee1 ee2 es' fs'
    | _, _ => ret tt
    end.
  (** 330-359 [A @ B] *)
  Definition matmul (A B : quop) : M quop :=
    check_spaces (q_in A) (q_out B) ;;;
    dd1 <- q_copy A false ;;
    dd2 <- q_copy B false ;;
    join_edges (snd dd1) (snd dd2) (q_in A) (q_out B) ;;;
    in' <- mmap (look (snd dd2)) (q_in B) ;;
    out' <- mmap (look (snd dd1)) (q_out A) ;;
    ign1 <- mmap (look (snd dd1)) (q_ign A) ;;
    ign2 <- mmap (look (snd dd2)) (q_ign B) ;;
    construct (Qu out' in' (map snd (fst dd1) ++ map snd (fst dd2)) (ign1 ++ ign2)
      (cps_of (fst dd1) (q_cps A) ++ cps_of (fst dd2) (q_cps B))).

  (** 398-426 *)
  Definition tensor_product (A B : quop) : M quop :=
    dd1 <- q_copy A false ;;
    dd2 <- q_copy B false ;;
    in1 <- mmap (look (snd dd1)) (q_in A) ;;
    in2 <- mmap (look (snd dd2)) (q_in B) ;;
    out1 <- mmap (look (snd dd1)) (q_out A) ;;
    out2 <- mmap (look (snd dd2)) (q_out B) ;;
    ign1 <- mmap (look (snd dd1)) (q_ign A) ;;
    ign2 <- mmap (look (snd dd2)) (q_ign B) ;;
    construct (Qu (out1 ++ out2) (in1 ++ in2) (map snd (fst dd1) ++ map snd (fst dd2)) (ign1 ++ ign2)
      (cps_of (fst dd1) (q_cps A) ++ cps_of (fst dd2) (q_cps B))).

  (** 235-236 *)
  Definition is_scalar (q : quop) : bool := match q_out q, q_in q with [], [] => true | _, _ => false end.
  (** 384-388: [A * B] for two operators *)
  Definition mul (A B : quop) : M quop :=
    guard (is_scalar A || is_scalar B) ;;; tensor_product A B.
  (** 374-388: [A * t] and [t * A] for a tensor (376-383: it is wrapped in a Node and a QuScalar) *)
  Definition mul_tensor (A : quop) (t : tensor R) : M quop :=
    q_nodes A ;;;
    n <- new_node t None ;;
    guard (match shape t with [] => true | _ => false end) ;;;
    B <- construct (Qu [] [] [n] [] []) ;;
    mul A B.

  (** 64-83 *)
  Definition identity (space : list nat) : M quop :=
    ns <- mmap (fun d => new_copy_node 2 d None) space ;;
    out' <- mmap (fun n => edge_of n 0) ns ;;
    in' <- mmap (fun n => edge_of n 1) ns ;;
    construct (Qu out' in' [] [] ns).

  (** 197-219 *)
  Definition from_tensor (t : tensor R) (out_axes in_axes : list nat) : M quop :=
    n <- new_node t None ;;
    out' <- mmap (edge_of n) out_axes ;;
    in' <- mmap (edge_of n) in_axes ;;
    construct (Qu out' in' [n] [] []).
  (** 515-543 QuVector.from_tensor and 585-613 QuAdjointVector.from_tensor with the axes given; no reference node *)
  Definition vector_from_tensor (t : tensor R) (axes : list nat) : M quop :=
    n <- new_node t None ;; out' <- mmap (edge_of n) axes ;; construct (Qu out' [] [] [] []).
  Definition adjoint_from_tensor (t : tensor R) (axes : list nat) : M quop :=
    n <- new_node t None ;; in' <- mmap (edge_of n) axes ;; construct (Qu [] in' [] [] []).

  (** 285-291 *)
  Definition norm (q : quop) : M quop := a <- adjoint q ;; p <- matmul a q ;; trace p.
  (** 551-557 QuVector.projector and reduced_density *)
  Definition projector (q : quop) : M quop := a <- adjoint q ;; matmul q a.
  Definition reduced_density (q : quop) (ts : list nat) : M quop := r <- projector q ;; partial_trace r ts.
End Quantum.
