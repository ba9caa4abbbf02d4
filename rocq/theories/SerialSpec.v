(** * SerialSpec: networks in a heap of named objects, and copies of them *)
From Coq Require Import String.
From Verif Require Import Prelude Res Algebra Tensor Serial.
Set Implicit Arguments.
Unset Strict Implicit.
Open Scope list_scope.
Open Scope nat_scope.

Section Spec.
  Context {R : csr}.
  Notation heap := (@heap R).
  (** the edge on an axis of a node *)
  Definition slot (h : heap) (n k : nat) : option nat :=
    match nth_error (hn h) n with Some nd => nth_error (o_edges nd) k | None => None end.
  Definition has_end (ed : oedge) (n k : nat) : Prop := g_1 ed = Some (n, k) \/ g_2 ed = Some (n, k).

  (** the nodes [ns] are as the constructors and [connect] leave them *)
  Record sound (h : heap) (ns : list nat) : Prop := {
    so_node : forall n, In n ns -> exists nd, nth_error (hn h) n = Some nd /\ NoDup (o_axes nd) /\
      length (o_axes nd) = length (pshape (o_pay nd)) /\ length (o_edges nd) = length (pshape (o_pay nd));
    so_edge : forall n k e, In n ns -> slot h n k = Some e ->
      exists ed, nth_error (he h) e = Some ed /\ has_end ed n k /\ g_dangling ed = is_none (g_2 ed) /\ g_1 ed <> None /\ g_1 ed <> g_2 ed;
    so_back : forall n k e ed m l, In n ns -> slot h n k = Some e -> nth_error (he h) e = Some ed -> has_end ed m l -> In m ns -> slot h m l = Some e
  }.
  (** [es] lists the edges of the nodes [ns] *)
  Definition all_edges (h : heap) (ns es : list nat) : Prop := NoDup es /\ forall e, In e es <-> exists n k, In n ns /\ slot h n k = Some e.

  (** ends of edges: nodes of [ns] become those of [ns'] at the same positions, others are dropped *)
  Definition move (ns ns' : list nat) (x : option (nat * nat)) : option (nat * nat) :=
    match x with
    | Some (n, a) => if in_dec Nat.eq_dec n ns then Some (nth (nindex n ns) ns' 0, a) else None
    | None => None
    end.
  (** equal tensors: the same shape and the same entries *)
  Definition same_pay (p q : @payload R) : Prop := match p, q with PNode t, PNode u => teq t u | PCopy _ _ _, PCopy _ _ _ => p = q | _, _ => False end.
  (** [ns'] in [h'] is a copy of the network [ns] in [h] *)
  Record copied (h : heap) (ns : list nat) (h' : heap) (ns' : list nat) : Prop := {
    cp_nodup : NoDup ns';
    cp_length : length ns' = length ns;
    cp_node : forall i, i < length ns -> exists nd nd', nth_error (hn h) (nth i ns 0) = Some nd /\ nth_error (hn h') (nth i ns' 0) = Some nd' /\
      o_name nd' = o_name nd /\ o_axes nd' = o_axes nd /\ o_backend nd' = o_backend nd /\ same_pay (o_pay nd') (o_pay nd) /\ length (o_edges nd') = length (o_edges nd);
    cp_edge : forall i k e ed, i < length ns -> slot h (nth i ns 0) k = Some e -> nth_error (he h) e = Some ed ->
      exists e' ed', slot h' (nth i ns' 0) k = Some e' /\ nth_error (he h') e' = Some ed' /\ g_name ed' = g_name ed /\
        g_1 ed' = move ns ns' (g_1 ed) /\ g_2 ed' = move ns ns' (g_2 ed) /\ g_dangling ed' = is_none (g_2 ed');
    cp_same : forall i k j l e1 e2 f1 f2, i < length ns -> j < length ns ->
      slot h (nth i ns 0) k = Some e1 -> slot h (nth j ns 0) l = Some e2 -> slot h' (nth i ns' 0) k = Some f1 -> slot h' (nth j ns' 0) l = Some f2 ->
      (f1 = f2 <-> e1 = e2)
  }.
  (** nothing that was in the heap has changed *)
  Definition extends (h h' : heap) : Prop :=
    (forall n nd, nth_error (hn h) n = Some nd -> nth_error (hn h') n = Some nd) /\ (forall e ed, nth_error (he h) e = Some ed -> nth_error (he h') e = Some ed).
  (** no edge has its first end outside the collection and its second end in it *)
  Definition first_ends (h : heap) (ns : list nat) : Prop :=
    forall n k e ed m l, In n ns -> slot h n k = Some e -> nth_error (he h) e = Some ed -> g_1 ed = Some (m, l) -> In m ns.
  (** no edge leaves the collection *)
  Definition inside (h : heap) (ns : list nat) : Prop := forall n k e ed m l, In n ns -> slot h n k = Some e -> nth_error (he h) e = Some ed -> has_end ed m l -> In m ns.
End Spec.
(** what becomes of a dictionary of edges *)
Definition bound (es : list nat) (f : nat -> nat) (b : list (string * list nat)) : list (string * list nat) :=
  filter (fun x => negb (length (snd x) =? 0)) (map (fun x => (fst x, map f (filter (fun e => mem e es) (snd x)))) b).

