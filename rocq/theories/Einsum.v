(** * Einsum: the specification of a tensor network's value.

    A network is a list of tensors whose axes carry labels.  Its value, at a given
    assignment of the open labels, is the sum over all values of the summed labels of the
    product of the entries - the textbook Einstein summation.  Nothing here refers to how
    the library contracts a network.  Labels are integers for ncon, edges for graphs. *)
From Verif Require Import Prelude Algebra Tensor.
Set Implicit Arguments.

Section Einsum.
  Variable L : Type.
  Variable Leq : forall x y : L, {x = y} + {x <> y}.
  Variable R : csr.

  (** a value for every label *)
  Definition asg := L -> nat.

  (** sum of [f] over all values of the labels [ls] *)
  Fixpoint esum (dim : L -> nat) (ls : list L) (f : asg -> R) (a : asg) : R :=
    match ls with
    | [] => f a
    | l :: r => nsum (dim l) (fun i => esum dim r f (upd Leq a l i))
    end.

  (** a labelled tensor: axis k of the tensor carries the k-th label *)
  Definition factor : Type := (tensor R * list L)%type.
  Definition fval (x : factor) (a : asg) : R := elt (fst x) (map a (snd x)).
  Definition netprod (net : list factor) (a : asg) : R := lprod net (fun x => fval x a).

  (** value of the network with the labels [ls] summed and the others fixed by [a] *)
  Definition einsum (dim : L -> nat) (ls : list L) (net : list factor) (a : asg) : R :=
    esum dim ls (netprod net) a.

  (** labels of all axes of the network, and those that occur more than once (each listed once) *)
  Definition net_labels (net : list factor) : list L := flat_map (fun x => snd x) net.
  Definition repeated (ls : list L) : list L :=
    nodup Leq (filter (fun x => Nat.leb 2 (count_occ Leq ls x)) ls).

  (** Einstein convention: repeated labels are summed, labels occurring once are open *)
  Definition value (dim : L -> nat) (net : list factor) (a : asg) : R :=
    einsum dim (repeated (net_labels net)) net a.

  (** every axis has the size of its label *)
  Definition fits (dim : L -> nat) (x : factor) : Prop := shape (fst x) = map dim (snd x).
End Einsum.
Arguments asg : clear implicits.
Arguments factor : clear implicits.
Arguments fval {L R}.
Arguments netprod {L R}.
Arguments fits {L R}.
Arguments esum {L} Leq {R}.
Arguments einsum {L} Leq {R}.
Arguments net_labels {L R}.
Arguments repeated {L} Leq.
Arguments value {L} Leq {R}.
