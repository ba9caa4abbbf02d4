(** * PathSolveLabels: what the labels of a network in the notation of ncon mean *)
From Coq Require Import ZArith Sorted.
From Verif Require Import Prelude PathSolve PathSolveSpec.
Set Implicit Arguments.
Unset Strict Implicit.

Section Spec.
  Variable shapes : list (list nat).
  Variable labels : list (list Z).
  Definition lab (x k : nat) : Z := nth k (nth x labels []) 0%Z.
  Definition dim (x k : nat) : nat := nth k (nth x shapes []) 0.
  Definition rank (x : nat) : nat := length (nth x labels []).
  (** how often a label occurs *)
  Definition occurs (e : Z) : nat := count_occ Z.eq_dec (concat labels) e.
  (** one label per axis, each at most twice and then on axes of one dimension; no axis of dimension 0 *)
  Record network := {
    nw_shapes : forall x, length (nth x shapes []) = rank x;
    nw_twice : forall e, occurs e <= 2;
    nw_dims : forall x k y j, k < rank x -> j < rank y -> lab x k = lab y j -> dim x k = dim y j;
    nw_pos : forall x k, k < rank x -> 1 <= dim x k
  }.
  (** the labels contracted *)
  Definition internal : list Z := filter (fun e => occurs e =? 2) (nodup Z.eq_dec (concat labels)).
  (** legs between two tensors, and open legs of a tensor *)
  Context {L : lsf}.
  Variable ldim : nat -> L.
  Definition between (x y : nat) : L :=
    lsum (map (fun k => ldim (dim x k)) (filter (fun k => if in_dec Z.eq_dec (lab x k) (nth y labels []) then true else false) (seq 0 (rank x)))).
  Definition open_legs (x : nat) : L :=
    lsum (map (fun k => ldim (dim x k)) (filter (fun k => occurs (lab x k) =? 1) (seq 0 (rank x)))).
  Definition weight (x y : nat) : L := if x =? y then open_legs x else between x y.
End Spec.

Section Steps.
  Variable labels : list (list Z).
  (** all labels of a group of tensors *)
  Definition labels_of (g : list nat) : list Z := flat_map (fun x => nth x labels []) g.
  (** [l] lists, in increasing order, the labels with [P] *)
  Definition lists (P : Z -> Prop) (l : list Z) : Prop := NoDup l /\ StronglySorted Z.le l /\ forall e, In e l <-> P e.
  (** the labels contracted by the pairs of an order: those two groups share *)
  Fixpoint contracts (gs : list (list nat)) (order : list (nat * nat)) (ls : list (list Z)) : Prop :=
    match order, ls with
    | [], [] => True
    | (j, i) :: r, l :: ls' =>
        lists (fun e => In e (labels_of (nth j gs [])) /\ In e (labels_of (nth i gs []))) l /\ contracts (join gs j i) r ls'
    | _, _ => False
    end.
End Steps.
