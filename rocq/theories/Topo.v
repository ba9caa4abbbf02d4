(** * Topo: nodes from an einsum-like string (utils.py [from_topology])

    Characters are natural numbers; 44 is the comma.  The nodes live on the heap of Graph.v, with the letters as axis names. *)
From Coq Require Import List.
From Verif Require Import Prelude Algebra Tensor Graph.
Import ListNotations.
Set Implicit Arguments.
Unset Strict Implicit.

(** utils.py:144: topology.split(",") *)
Fixpoint split_commas (l : list nat) : list (list nat) :=
  match l with
  | [] => [[]]
  | c :: l' =>
      if c =? 44 then [] :: split_commas l'
      else match split_commas l' with p :: ps => (c :: p) :: ps | [] => [[c]] end
  end.

(** utils.py:142: edge_dict, the newest entry first *)
Definition dict := list (nat * eid).
Definition dget (d : dict) (c : nat) : option eid :=
  match find (fun x => fst x =? c) d with Some x => Some (snd x) | None => None end.

Section Topo.
  Context {R : csr}.
  Notation M := (@M R).
  Notation "x <- m ;; k" := (bind m (fun x => k)) (at level 61, m at next level, right associativity).
  Notation "m ;;; k" := (bind m (fun _ => k)) (at level 61, right associativity).

  (** utils.py:152-156: the loop over the letters of one node; [^] is connect *)
  Fixpoint link_letters (n : nid) (cs : list nat) (d : dict) : M dict :=
    match cs with
    | [] => ret d
    | c :: cs' =>
        ax <- axis_of_name n c ;;
        e <- edge_of n ax ;;
        match dget d c with
        | Some old => g <- connect old e ;; link_letters n cs' ((c, g) :: d)
        | None => link_letters n cs' ((c, e) :: d)
        end
    end.
  (** utils.py:147-157: the loop over the nodes *)
  Fixpoint make_nodes (parts : list (list nat * tensor R)) (d : dict) (nodes : list nid) : M (list nid) :=
    match parts with
    | [] => ret nodes
    | (cs, t) :: parts' =>
        guard (length cs =? rank t) ;;;
        n <- new_node t (Some cs) ;;
        d' <- link_letters n cs d ;;
        make_nodes parts' d' (nodes ++ [n])
    end.
  (** utils.py:127-158 [from_topology] *)
  Definition from_topology (topology : list nat) (tensors : list (tensor R)) : M (list nid) :=
    let parts := split_commas topology in
    guard (length parts =? length tensors) ;;;
    make_nodes (combine parts tensors) [] [].
End Topo.
