(** * PathContract: model of tensornetwork/contractors/opt_einsum_paths/path_contractors.py and utils.py.
    The path algorithm of opt_einsum is a parameter. *)
From Verif Require Import Prelude Algebra Tensor Einsum Graph GraphQuery.
Set Implicit Arguments.
Unset Strict Implicit.

(** utils.Algorithm (utils.py:20-21): index sets of the tensors, output set, dimensions -> path *)
Definition algorithm := list (list eid) -> list eid -> list (eid * nat) -> list (nat * nat).

(** utils.multi_remove (utils.py:24-26) *)
Definition multi_remove {A} (l : list A) (ix : list nat) : list A :=
  map snd (filter (fun p => negb (mem (fst p) ix)) (combine (seq 0 (length l)) l)).

Section Path.
  Context {R : csr}.
  Notation M := (@M R).
  Variable iter : list nat -> list nat.
  Notation "x <- m ;; k" := (bind m (fun x => k)) (at level 61, m at next level, right associativity).
  Notation "m ;;; k" := (bind m (fun _ => k)) (at level 61, right associativity).

  (** utils.get_path (utils.py:29-47); [nodes] is the list made from the set *)
  Definition get_path (alg : algorithm) (nodes : list nid) : M (list (nat * nat)) :=
    ins <- mmap (@node_edges R) nodes ;;
    out <- get_subgraph_dangling iter nodes ;;
    es <- get_all_edges iter nodes ;;
    ds <- mmap (@edge_dim R) es ;;
    ret (alg ins out (combine es ds)).

  (** path_contractors.py:72-76: the loop over the edges found before any contraction. [S] is nodes_set;
      [is_disabled] and [is_trace] are read from the edge object; [nodes_set.remove] raises KeyError *)
  Fixpoint trace_loop (es : list eid) (S : list nid) : M (list nid) :=
    match es with
    | [] => ret S
    | e :: r =>
        ed <- (fun s => (s, s_edges s e)) ;;
        if e_dis ed then trace_loop r S
        else if is_trace_edge ed then
          guard (mem (e_n1 ed) S) ;;;
          N <- contract_parallel iter e ;;
          trace_loop r (N :: filter (fun n => negb (Nat.eqb n (e_n1 ed))) S)
        else trace_loop r S
    end.

  (** path_contractors.py:86-89 *)
  Fixpoint follow (path : list (nat * nat)) (nodes : list nid) : M (list nid) :=
    match path with
    | [] => ret nodes
    | (a, b) :: r =>
        match nth_error nodes a, nth_error nodes b with
        | Some n, Some m =>
            N <- contract_between iter n m true [] None ;;
            follow r (multi_remove (nodes ++ [N]) [a; b])
        | _, _ => fail                              (* IndexError *)
        end
    end.

  (** the checks of 59-70; returns the order used at the end *)
  Definition output_order (ns : list nid) (order : option (list eid)) : M (list eid) :=
    o <- (match order with
          | Some o => ret o
          | None => d <- get_subgraph_dangling iter ns ;; guard (Nat.leb (length d) 1) ;;; ret d
          end) ;;
    d <- get_subgraph_dangling iter ns ;;
    guard (forallb (fun e => mem e d) o && forallb (fun e => mem e o) d) ;;;
    ret o.

  (** base (path_contractors.py:36-96) *)
  Definition base (alg : algorithm) (ns : list nid) (order : option (list eid)) (ignore : bool) : M nid :=
    let S := nodup Nat.eq_dec ns in
    edges <- get_all_edges iter S ;;
    o <- (if ignore then ret [] else output_order ns order) ;;
    S1 <- trace_loop edges S ;;
    match S1 with
    | [n] => (if ignore then ret tt else reorder_edges n o) ;;; ret n
    | _ =>
        let nodes := iter S1 in
        path <- get_path alg nodes ;;
        fin <- follow path nodes ;;
        match fin with
        | [] => fail                                (* IndexError *)
        | n :: _ => (if ignore then ret tt else reorder_edges n o) ;;; ret n
        end
    end.

  (** auto (path_contractors.py:196-266); [algs n] is the algorithm selected for n nodes *)
  Definition auto (algs : nat -> algorithm) (ns : list nid) (order : option (list eid)) (ignore : bool) : M nid :=
    match ns with
    | [] => fail
    | [n] =>
        o <- (if ignore then ret order
              else match order with
                   | Some o => ret (Some o)
                   | None =>
                       all <- get_all_edges iter [n] ;; nd <- get_all_nondangling iter [n] ;;
                       let d := filter (fun e => negb (mem e nd)) all in
                       guard (Nat.leb (length d) 1) ;;; ret (Some d)
                   end) ;;
        es <- get_all_nondangling iter [n] ;;
        f <- (match es with e :: _ => contract_parallel iter e | [] => ret n end) ;;
        (match o with None => fail | Some o => reorder_edges f o end) ;;;    (* iterating None: TypeError *)
        (if ignore then ret tt else match o with None => fail | Some o => reorder_edges f o end) ;;;
        ret f
    | _ => base (algs (length ns)) ns order ignore
    end.

  (** contract_path (path_contractors.py:340-393) for two or more nodes and a non-empty path of pairs. The
      results of contracting trace edges are not stored in [nodes].  The one-node branch (361-365), the
      empty path (367-368, returns the list) and one-element path entries (379-383) are not modelled. *)
  Fixpoint drop_traces (es : list eid) : M unit :=
    match es with
    | [] => ret tt
    | e :: r =>
        ed <- (fun s => (s, s_edges s e)) ;;
        if e_dis ed then drop_traces r
        else if is_trace_edge ed then contract_parallel iter e ;;; drop_traces r
        else drop_traces r
    end.
  Definition contract_path (path : list (nat * nat)) (nodes : list nid) (order : list eid) : M nid :=
    edges <- get_all_edges iter nodes ;;
    drop_traces edges ;;;
    fin <- follow path nodes ;;
    match fin with
    | [] => fail
    | n :: _ => f <- contract_trace_edges iter n ;; reorder_edges f order ;;; ret f
    end.
End Path.

(** ** The contract of a path: each step names two different tensors of the current list; the two are
    removed and the result appended; one tensor is left at the end *)
Fixpoint valid_path (n : nat) (path : list (nat * nat)) : Prop :=
  match path with
  | [] => n = 1
  | (a, b) :: r => a < n /\ b < n /\ a <> b /\ valid_path (n - 1) r
  end.
