(** * NodeQuery: model of the queries of a node by axis (network_components.py).
    A node is the names of its axes, its shape and for each axis its edge; [dangling] tells which edges are dangling. *)
From Coq Require Import String ZArith.
From Verif Require Import Prelude Res.
Set Implicit Arguments.
Unset Strict Implicit.
Open Scope nat_scope.

Inductive axis := Num (z : Z) | Name (s : string).
Record qnode := QNode { q_names : list string; q_shape : list nat; q_edges : list nat }.

(** [list.index] *)
Fixpoint py_index (s : string) (l : list string) : res Z :=
  match l with
  | [] => Raise
  | x :: r => if String.eqb x s then Ok 0%Z else rbind (py_index s r) (fun k => Ok (k + 1)%Z)
  end.
(** [l[z]] of a list *)
Definition py_get (l : list nat) (z : Z) : res nat :=
  let n := Z.of_nat (List.length l) in
  let k := if (z <? 0)%Z then (z + n)%Z else z in
  if ((0 <=? k) && (k <? n))%Z then Ok (nth (Z.to_nat k) l 0) else Raise.
(** network_components.py 302-310 [get_axis_number] *)
Definition get_axis_number (q : qnode) (a : axis) : res Z :=
  match a with Num z => Ok z | Name s => py_index s (q_names q) end.
(** network_components.py 312-327 [get_dimension] *)
Definition get_dimension (q : qnode) (a : axis) : res nat :=
  rbind (get_axis_number q a) (fun k =>
    if ((k <? 0) || (Z.of_nat (List.length (q_shape q)) <=? k))%Z then Raise else py_get (q_shape q) k).
(** network_components.py 329-331 [get_edge] *)
Definition get_edge (q : qnode) (a : axis) : res nat :=
  rbind (get_axis_number q a) (fun k => py_get (q_edges q) k).
Section Dangling.
  Variable dangling : nat -> bool.
  (** network_components.py 341-343 [get_all_dangling] *)
  Definition get_all_dangling (q : qnode) : list nat := filter dangling (q_edges q).
  (** network_components.py 337-339 [get_all_nondangling]; the set as a list without repetitions *)
  Definition get_all_nondangling (q : qnode) : list nat := nodup Nat.eq_dec (filter (fun e => negb (dangling e)) (q_edges q)).
  (** network_components.py 350-354 [has_nondangling_edge] *)
  Fixpoint has_nondangling (es : list nat) : bool := match es with [] => false | e :: r => if negb (dangling e) then true else has_nondangling r end.
  (** network_components.py 356-360 [has_dangling_edge] *)
  Fixpoint has_dangling (es : list nat) : bool := match es with [] => false | e :: r => if dangling e then true else has_dangling r end.
End Dangling.
