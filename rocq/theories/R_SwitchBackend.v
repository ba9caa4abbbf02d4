(** * C71: what does not hold of switch_backend *)
From Coq Require Import String.
From Verif Require Import Prelude SwitchBackend.
Set Implicit Arguments.
Unset Strict Implicit.
Open Scope string_scope.
Open Scope list_scope.

(** an exception does not leave the nodes as they were *)
Theorem C71_atomic_refuted : exists (conv : string -> nat -> nat) new ns (h h' : nodes nat) n,
  NoDup ns /\ switch_backend conv new ns h = (h', false) /\ In n ns /\ fst (h n) = "numpy" /\ fst (h' n) = "jax".
Proof.
  exists (fun _ x => x), "jax", [0; 1], (fun n => (if Nat.eqb n 0 then "numpy" else "pytorch", 7)).
  eexists. exists 0. split; [repeat constructor; cbn; intuition discriminate|]. split; [reflexivity|].
  split; [left; reflexivity|]. split; reflexivity.
Qed.
Print Assumptions C71_atomic_refuted.

(** a node that occurs twice is refused the second time, although all nodes are of numpy *)
Theorem C71_repeat_refuted : exists (conv : string -> nat -> nat) new ns (h : nodes nat),
  In new known /\ new <> "symmetric" /\ (forall n, In n ns -> fst (h n) = "numpy") /\ snd (switch_backend conv new ns h) = false.
Proof.
  exists (fun _ x => x), "jax", [0; 0], (fun _ => ("numpy", 7)).
  split; [cbn; auto|]. split; [discriminate|]. split; [reflexivity|]. reflexivity.
Qed.
Print Assumptions C71_repeat_refuted.
