(** * PathSolveSpec: contraction orders and their costs, in terms of the tensors of the network

    [w x y] for x <> y is the logarithm of the dimension of the legs between tensors x and y, [w x x] of the open
    legs of x.  A group is the set of tensors contracted so far into one; an order is a list of pairs of positions
    in the list of groups, the second one being deleted. *)
From Verif Require Import Prelude Res PathSolve.
Set Implicit Arguments.
Unset Strict Implicit.

Section Spec.
  Context {L : lsf}.
  Variable w : nat -> nat -> L.
  Variable n : nat.

  (** the legs of the tensor contracted from the group [g]: open legs, and legs to tensors outside *)
  Definition legs (g : list nat) : L :=
    lplus (lsum (map (fun x => w x x) g))
          (lsum (map (fun x => lsum (map (w x) (filter (fun y => negb (mem y g)) (seq 0 n)))) g)).
  (** the legs between two groups *)
  Definition shared (g h : list nat) : L := lsum (map (fun x => lsum (map (w x) h)) g).
  (** the logarithm of the number of multiplications: every leg of either tensor, shared ones once *)
  Definition pair_cost (g h : list nat) : L := lsub (lplus (legs g) (legs h)) (shared g h).

  (** groups after contracting positions [j] and [i] *)
  Definition join (gs : list (list nat)) (j i : nat) : list (list nat) :=
    map (fun x => if x =? j then nth j gs [] ++ nth i gs [] else nth x gs []) (remove Nat.eq_dec i (seq 0 (length gs))).
  Definition ok_pair (k : nat) (p : nat * nat) : Prop := fst p < snd p < k.

  (** the costs of the steps; the groups at the end *)
  Fixpoint step_costs (gs : list (list nat)) (order : list (nat * nat)) : list L :=
    match order with
    | [] => []
    | (j, i) :: r => pair_cost (nth j gs []) (nth i gs []) :: step_costs (join gs j i) r
    end.
  Fixpoint groups_after (gs : list (list nat)) (order : list (nat * nat)) : list (list nat) :=
    match order with [] => gs | (j, i) :: r => groups_after (join gs j i) r end.
  (** the logarithm of the sum *)
  Definition total (l : list L) : option L :=
    match l with [] => None | c :: r => Some (fold_left lse r c) end.
  Definition singles : list (list nat) := map (fun x => [x]) (seq 0 n).
  (** an order contracting all tensors into one: pairs in range *)
  Fixpoint in_range (k : nat) (order : list (nat * nat)) : Prop :=
    match order with [] => k <= 1 | p :: r => ok_pair k p /\ in_range (k - 1) r end.

  (** no outer product as long as another contraction is possible *)
  Definition joined (gs : list (list nat)) (j i : nat) : Prop := llt l0 (shared (nth j gs []) (nth i gs [])) = true.
  Definition only_outer (gs : list (list nat)) : Prop := forall j i, ok_pair (length gs) (j, i) -> ~ joined gs j i.
  Fixpoint no_outer (gs : list (list nat)) (order : list (nat * nat)) : Prop :=
    match order with
    | [] => True
    | (j, i) :: r => (joined gs j i \/ only_outer gs) /\ no_outer (join gs j i) r
    end.

  (** some tensor always has a leg of dimension larger than one: there is an open one, or the network is connected *)
  Definition lively : Prop :=
    (exists x, x < n /\ llt l0 (w x x) = true) \/
    (forall s : nat -> bool, (exists x, x < n /\ s x = true) -> (exists x, x < n /\ s x = false) ->
      exists x y, x < n /\ y < n /\ s x = true /\ s y = false /\ llt l0 (w x y) = true).
End Spec.
