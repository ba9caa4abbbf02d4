(** * GraphCopy: model of Node.copy (tensornetwork/network_components.py) and of copy,
    replicate_nodes and reduced_density (network_operations.py) *)
From Verif Require Import Prelude Algebra Tensor Einsum Graph GraphQuery.
Set Implicit Arguments.
Unset Strict Implicit.

(** look up a key in a python dict given by its assignments, newest first *)
Fixpoint dget {A} (d : list (nat * A)) (k : nat) : option A :=
  match d with [] => None | (j, x) :: r => if Nat.eqb j k then Some x else dget r k end.

Section GraphCopy.
  Context {R : cjr}.
  Notation st := (@st R).
  Notation M := (@M R).
  Variable iter : list nat -> list nat.
  Notation "x <- m ;; k" := (bind m (fun x => k)) (at level 61, m at next level, right associativity).
  Notation "m ;;; k" := (bind m (fun _ => k)) (at level 61, right associativity).

  (** backend.conj (backends/numpy/numpy_backend.py:162-163) *)
  Definition conj_t (t : tensor R) : tensor R := Tensor (shape t) (fun ix => cj (elt t ix)).

  (** [new = Edge(p); p.node.add_edge(new, p.axis)] *)
  Definition put_open (p : nid * nat) : M eid :=
    f <- alloc_edge (Edge (fst p) (snd p) None false) ;; add_edge (fst p) f (snd p) false ;;; ret f.
  (** [new = Edge(p1, p2); q1.node.add_edge(new, q1.axis); q2.node.add_edge(new, q2.axis)] *)
  Definition put_joined (p1 p2 q1 q2 : nid * nat) : M eid :=
    f <- alloc_edge (Edge (fst p1) (snd p1) (Some p2) false) ;;
    add_edge (fst q1) f (snd q1) false ;;; add_edge (fst q2) f (snd q2) false ;;; ret f.

  (** Node.copy (network_components.py:638-660): the loop over [self.edges] *)
  Fixpoint copy_edges (N : nid) (i : nat) (seen es : list eid) : M unit :=
    match es with
    | [] => ret tt
    | e :: r =>
        if mem e seen then copy_edges N (S i) seen r
        else
          ed <- get_edge e ;;
          match e_2 ed with
          | Some (n2, a2) =>
              if Nat.eqb (e_n1 ed) n2
              then put_joined (N, e_a1 ed) (N, a2) (N, e_a1 ed) (N, a2) ;;; copy_edges N (S i) (e :: seen) r
              else put_open (N, i) ;;; copy_edges N (S i) (e :: seen) r
          | None => put_open (N, i) ;;; copy_edges N (S i) (e :: seen) r
          end
    end.
  Definition node_copy (n : nid) (conj : bool) : M nid :=
    nd <- get_node n ;;
    N <- new_node (if conj then conj_t (n_t nd) else n_t nd) (Some (n_names nd)) ;;
    copy_edges N 0 [] (n_edges nd) ;;;
    ret N.

  (** copy (network_operations.py:32-82): one edge of the loop at 57-80; [d] is node_dict.  A node
      missing from the dictionary is a KeyError. *)
  Definition copy_edge (d : list (nid * nid)) (e : eid) : M (eid * eid) :=
    ed <- get_edge e ;;
    match e_2 ed with
    | None =>
        match dget d (e_n1 ed) with
        | Some N1 => f <- put_open (N1, e_a1 ed) ;; ret (e, f)
        | None => fail
        end
    | Some (n2, a2) =>
        match dget d n2 with
        | None =>
            match dget d (e_n1 ed) with
            | Some N1 => f <- put_open (N1, e_a1 ed) ;; ret (e, f)
            | None => fail
            end
        | Some N2 =>
            match dget d (e_n1 ed) with
            | None => f <- put_open (N2, a2) ;; ret (e, f)
            | Some N1 =>
                if Nat.eqb (e_n1 ed) n2
                then f <- alloc_edge (Edge N1 (e_a1 ed) (Some (N2, a2)) false) ;; ret (e, f)
                else f <- put_joined (N1, e_a1 ed) (N2, a2) (N2, a2) (N1, e_a1 ed) ;; ret (e, f)
            end
        end
    end.
  Definition copy (ns : list nid) (conj : bool) : M (list (nid * nid) * list (eid * eid)) :=
    Ns <- mmap (fun n => node_copy n conj) ns ;;
    let d := rev (combine ns Ns) in
    es <- get_all_edges iter ns ;;
    ee <- mmap (copy_edge d) es ;;
    ret (d, ee).
  (** replicate_nodes (85-104) *)
  Definition replicate_nodes (ns : list nid) (conj : bool) : M (list nid) :=
    dd <- copy ns conj ;;
    mmap (fun n => match dget (fst dd) n with Some N => ret N | None => fail end) ns.

  (** reduced_density (754-791) *)
  Fixpoint close_edges (ed : list (eid * eid)) (es : list eid) : M (list (eid * eid)) :=
    match es with
    | [] => ret ed
    | e :: r =>
        match dget ed e with
        | None => fail
        | Some f => g <- connect f e ;; close_edges ((e, g) :: ed) r
        end
    end.
  Definition reduced_density (es : list eid) : M (list (nid * nid) * list (eid * eid)) :=
    (fun s => guard (forallb (edge_dangling s) es) s) ;;;
    ns0 <- get_all_nodes iter es ;;
    ns <- reachable iter ns0 ;;
    dd <- copy ns true ;;
    ed <- close_edges (snd dd) es ;;
    ret (fst dd, ed).
End GraphCopy.
