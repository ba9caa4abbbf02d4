(** * SplitNode: model of split_node, split_node_qr, split_node_rq and split_node_full_svd
    (tensornetwork/network_operations.py) *)
From Verif Require Import Prelude Res Algebra Tensor Einsum Graph GraphQuery Backends.
Set Implicit Arguments.
Unset Strict Implicit.

Section SplitNode.
  Context {R : cjr}.
  Notation st := (@st R).
  Notation M := (@M R).
  Notation "x <- m ;; k" := (bind m (fun x => k)) (at level 61, m at next level, right associativity).
  Notation "m ;;; k" := (bind m (fun _ => k)) (at level 61, right associativity).

  (** [edge.axis1 if edge.node1 is node else edge.axis2] (network_operations.py:229-231): [axis2] of a
      dangling edge is None, using it as an axis raises *)
  Definition node_axis (n : nid) (e : eid) : M nat :=
    ed <- get_edge e ;;
    if Nat.eqb (e_n1 ed) n then ret (e_a1 ed) else match e_2 ed with Some (_, a2) => ret a2 | None => fail end.
  (** AbstractNode.tensor_from_edge_order (network_components.py:290-300) *)
  Definition own_axis (n : nid) (e : eid) : M nat :=
    ed <- get_edge e ;;
    if Nat.eqb (e_n1 ed) n then ret (e_a1 ed)
    else match e_2 ed with Some (n2, a2) => if Nat.eqb n2 n then ret a2 else fail | None => fail end.
  Definition tensor_from_edge_order (n : nid) (es : list eid) : M (tensor R) :=
    nd <- get_node n ;;
    order <- mmap (own_axis n) es ;;
    guard (is_permb (rank (n_t nd)) order) ;;;
    ret (transpose (n_t nd) order).

  (** axis names of the new nodes (network_operations.py:194-207): the old names and the bond name *)
  Definition names_at (nms axs : list nat) : M (list nat) :=
    guard (forallb (fun i => Nat.ltb i (length nms)) axs) ;;; ret (gather 0 nms axs).
  Definition split_names (n : nid) (L Rt : list eid) (left_bond right_bond : option nat) : M (option (list nat) * option (list nat)) :=
    nd <- get_node n ;;
    match n_names nd, left_bond, right_bond with
    | _ :: _, Some lb, Some rb =>
        al <- mmap (node_axis n) L ;; nl <- names_at (n_names nd) al ;;
        ar <- mmap (node_axis n) Rt ;; nr <- names_at (n_names nd) ar ;;
        ret (Some (nl ++ [lb]), Some (rb :: nr))
    | _, _, _ => ret (None, None)
    end.
  (** the loops 232-234 and 244-247: edge by edge, installed on the new node and moved there *)
  Fixpoint move_edges (n N : nid) (i : nat) (axs : list nat) (es : list eid) : M unit :=
    match es, axs with
    | e :: r, ax :: axr => add_edge N e i false ;;; update_axis e (n, ax) (N, i) ;;; move_edges n N (S i) axr r
    | _, _ => ret tt
    end.
  (** [node.edges[-1]] *)
  Definition last_edge (n : nid) : M eid :=
    nd <- get_node n ;; match rev (n_edges nd) with e :: _ => ret e | [] => fail end.

  (** 223-251, shared by the SVD, QR (334-363) and RQ (436-466) versions *)
  Definition split_with (n : nid) (L Rt : list eid) (tl tr : tensor R) (nms : option (list nat) * option (list nat)) : M (nid * nid) :=
    N1 <- new_node tl (fst nms) ;;
    al <- mmap (node_axis n) L ;;
    move_edges n N1 0 al L ;;;
    N2 <- new_node tr (snd nms) ;;
    ar <- mmap (node_axis n) Rt ;;
    move_edges n N2 1 ar Rt ;;;
    e1 <- last_edge N1 ;;
    e2 <- edge_of N2 0 ;;
    connect e1 e2 ;;;
    fresh_edges n ;;;
    ret (N1, N2).

  (** backends/abstract_backend broadcast_right/left_multiplication
      (numpy_backend.py:543-558): tensor * vector along the last (first) axis *)
  Definition times_last (t : tensor R) (v : list R) : tensor R :=
    Tensor (shape t) (fun ix => elt t ix *! nth (last ix 0) v r0).
  Definition times_first (v : list R) (t : tensor R) : tensor R :=
    Tensor (shape t) (fun ix => nth (hd 0 ix) v r0 *! elt t ix).
  (** backend.diagflat of a vector *)
  Definition diag_mat (v : list R) : tensor R :=
    Tensor [length v; length v] (fun ix => if Nat.eqb (nth 0 ix 0) (nth 1 ix 0) then nth (nth 0 ix 0) v r0 else r0).

  (** split_node_qr (258-364) and split_node_rq (366-467); [qrf] as in Backends.v *)
  Definition split_node_qr (qrf : tensor R -> tensor R * tensor R) (n : nid) (L Rt : list eid) (bond : option nat) : M (nid * nid) :=
    nms <- split_names n L Rt bond bond ;;
    t <- tensor_from_edge_order n (L ++ Rt) ;;
    let '(q, r) := qr true (fun x => x) qrf t (length L) false in
    split_with n L Rt q r nms.
  Definition split_node_rq (qrf : tensor R -> tensor R * tensor R) (n : nid) (L Rt : list eid) (bond : option nat) : M (nid * nid) :=
    nms <- split_names n L Rt bond bond ;;
    t <- tensor_from_edge_order n (L ++ Rt) ;;
    let '(r, q) := rq true (fun x => x) qrf t (length L) false in
    split_with n L Rt r q nms.
  (** split_node (128-255): [svdf], [nkeep] as in Backends.v, [sqrtf] the square root *)
  Definition split_node (svdf : tensor R -> tensor R * list R * tensor R) (nkeep : list R -> nat) (sqrtf : R -> R)
      (n : nid) (L Rt : list eid) (bond : option nat) : M (nid * nid * list R) :=
    nms <- split_names n L Rt bond bond ;;
    t <- tensor_from_edge_order n (L ++ Rt) ;;
    let '(u, sv, vh, rest) := svd svdf nkeep t (length L) in
    let sq := map sqrtf sv in
    NN <- split_with n L Rt (times_last u sq) (times_first sq vh) nms ;;
    ret (NN, rest).
  (** split_node_full_svd (469-587): three nodes *)
  Definition split_node_full_svd (svdf : tensor R -> tensor R * list R * tensor R) (nkeep : list R -> nat)
      (n : nid) (L Rt : list eid) (left_bond right_bond : option nat) : M (nid * nid * nid * list R) :=
    nms <- split_names n L Rt left_bond right_bond ;;
    t <- tensor_from_edge_order n (L ++ Rt) ;;
    let '(u, sv, vh, rest) := svd svdf nkeep t (length L) in
    N1 <- new_node u (fst nms) ;;
    N3 <- new_node (diag_mat sv) (match fst nms, left_bond, right_bond with Some _, Some lb, Some rb => Some [lb; rb] | _, _, _ => None end) ;;
    N2 <- new_node vh (snd nms) ;;
    al <- mmap (node_axis n) L ;;
    move_edges n N1 0 al L ;;;
    ar <- mmap (node_axis n) Rt ;;
    move_edges n N2 1 ar Rt ;;;
    e1 <- last_edge N1 ;; c0 <- edge_of N3 0 ;; connect e1 c0 ;;;
    c1 <- edge_of N3 1 ;; e2 <- edge_of N2 0 ;; connect c1 e2 ;;;
    fresh_edges n ;;;
    ret (N1, N3, N2, rest).
End SplitNode.
