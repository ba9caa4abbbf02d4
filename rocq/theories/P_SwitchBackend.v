(** * C71: switching the backend of nodes *)
From Coq Require Import String.
From Verif Require Import Prelude SwitchBackend SwitchBackendFacts.
Set Implicit Arguments.
Unset Strict Implicit.
Open Scope string_scope.
Open Scope list_scope.

(** for distinct nodes: succeeds exactly from numpy to a known backend other than symmetric, or when all are symmetric already *)
Theorem C71_succeeds (A : Type) (conv : string -> A -> A) new ns (h : nodes A) : NoDup ns ->
  snd (switch_backend conv new ns h) = true <->
    (new = "symmetric" /\ forall n, In n ns -> fst (h n) = "symmetric") \/
    (In new ["tensorflow"; "numpy"; "jax"; "pytorch"] /\ forall n, In n ns -> fst (h n) = "numpy").
Proof. intros N. pose proof (switch_ok conv new h N) as H. destruct (switch_backend conv new ns h). apply H. Qed.
Print Assumptions C71_succeeds.

(** then every node of the list has the new backend and its array converted once; the others stay as they are *)
Theorem C71_effect (A : Type) (conv : string -> A -> A) new ns (h h' : nodes A) : NoDup ns ->
  switch_backend conv new ns h = (h', true) -> new <> "symmetric" ->
  forall n, (In n ns -> h' n = (new, conv new (snd (h n)))) /\ (~ In n ns -> h' n = h n).
Proof. intros N E S. pose proof (switch_ok conv new h N) as H. rewrite E in H. apply H; [reflexivity|exact S]. Qed.
Print Assumptions C71_effect.

(** switching to symmetric, or to an unknown backend, changes nothing *)
Theorem C71_unchanged (A : Type) (conv : string -> A -> A) new ns (h h' : nodes A) b : NoDup ns ->
  switch_backend conv new ns h = (h', b) -> new = "symmetric" \/ ~ In new known -> forall n, h' n = h n.
Proof. intros N E S. pose proof (switch_ok conv new h N) as H. rewrite E in H. apply H, S. Qed.
Print Assumptions C71_unchanged.

(** otherwise an exception leaves the nodes before the first one that is not of numpy switched, and the others as they were *)
Theorem C71_failure (A : Type) (conv : string -> A -> A) new ns (h h' : nodes A) : NoDup ns ->
  switch_backend conv new ns h = (h', false) -> new <> "symmetric" -> In new known ->
  exists pre n post, ns = pre ++ n :: post /\ (forall m, In m pre -> fst (h m) = "numpy") /\ fst (h n) <> "numpy" /\
    forall m, (In m pre -> h' m = (new, conv new (snd (h m)))) /\ (~ In m pre -> h' m = h m).
Proof. intros N E S K. pose proof (switch_ok conv new h N) as H. rewrite E in H. destruct H as (_ & _ & _ & H). exact (H eq_refl S K). Qed.
Print Assumptions C71_failure.

Definition ex71 : nodes (list string) := fun n => (nth n ["numpy"; "numpy"; "jax"; "symmetric"] "numpy", []).
Definition conv71 (b : string) (a : list string) := a ++ [b].
Definition show71 (r : nodes (list string) * bool) := (map (fst r) (seq 0 4), snd r).
Example C71_example : NoDup [1; 0] /\ NoDup [1; 2; 0] /\
  show71 (switch_backend conv71 "pytorch" [1; 0] ex71) = ([("pytorch", ["pytorch"]); ("pytorch", ["pytorch"]); ("jax", []); ("symmetric", [])], true) /\
  show71 (switch_backend conv71 "pytorch" [1; 2; 0] ex71) = ([("numpy", []); ("pytorch", ["pytorch"]); ("jax", []); ("symmetric", [])], false) /\
  snd (switch_backend conv71 "symmetric" [3] ex71) = true /\ snd (switch_backend conv71 "symmetric" [0] ex71) = false /\
  snd (switch_backend conv71 "shell" [0] ex71) = false.
Proof.
  split; [repeat constructor; cbn; intuition discriminate|]. split; [repeat constructor; cbn; intuition discriminate|].
  repeat split; vm_compute; reflexivity.
Qed.
