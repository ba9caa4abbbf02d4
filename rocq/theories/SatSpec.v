(** * SatSpec: satisfying assignments of a 3SAT problem *)
From Coq Require Import List ZArith Bool.
From Verif Require Import Prelude Algebra Tensor.
Import ListNotations.
Set Implicit Arguments.
Unset Strict Implicit.

(** variable v = 1, 2, .. has the value number v - 1 of the assignment; the value 1 is True *)
Definition holds (ys : list nat) (x : Z) : bool :=
  if (0 <? x)%Z then Nat.eqb (nth (Z.abs_nat x - 1) ys 0) 1 else Nat.eqb (nth (Z.abs_nat x - 1) ys 0) 0.
Definition clause_holds (ys : list nat) (c : Z * Z * Z) : bool := let '(x, y, z) := c in holds ys x || holds ys y || holds ys z.
Definition satisfies (cs : list (Z * Z * Z)) (ys : list nat) : bool := forallb (clause_holds ys) cs.
(** the number of satisfying assignments of n variables *)
Definition solutions (n : nat) (cs : list (Z * Z * Z)) : nat := length (filter (satisfies cs) (idxs (repeat 2 n))).

(** x occurs (negated or not) in the clause *)
Definition occurs (v : nat) (c : Z * Z * Z) : Prop := let '(x, y, z) := c in Z.abs_nat x = v \/ Z.abs_nat y = v \/ Z.abs_nat z = v.
(** n is the largest variable *)
Definition largest (cs : list (Z * Z * Z)) (n : nat) : Prop :=
  (exists c, In c cs /\ occurs n c) /\ forall c v, In c cs -> occurs v c -> v <= n.
(** variables joined by a chain of clauses *)
Inductive linked (cs : list (Z * Z * Z)) (u : nat) : nat -> Prop :=
| linked_refl : linked cs u u
| linked_step c v w : linked cs u v -> In c cs -> occurs v c -> occurs w c -> linked cs u w.
(** k times 1 *)
Fixpoint times1 (R : csr) (k : nat) : R := match k with 0 => r0 | S k' => radd r1 (times1 R k') end.
