(** * What a drawing of a network should show *)
From Verif Require Import Prelude Algebra Tensor Graph GraphBase Graphviz.
Set Implicit Arguments.
Unset Strict Implicit.

(** the drawing of one edge [e], read off the places where it is attached *)
Inductive drawn {R : csr} (s : @st R) (lab : list nat) (e : eid) : list stmt -> Prop :=
| drawn_dangling n i : (forall p, slot s p = Some e <-> p = (n, i)) ->
    drawn s lab e [SNode (VInvis n i) [] true; SEdge (VInvis n i) (VNode n) lab]
| drawn_joined p q : p <> q -> (forall r, slot s r = Some e <-> r = p \/ r = q) ->
    drawn s lab e [SEdge (VNode (fst p)) (VNode (fst q)) lab].

Definition vertex_is (n : nid) (v : vertex) : nat := match v with VNode m => if Nat.eqb m n then 1 else 0 | _ => 0 end.

(** ends of edges drawn at node [n] *)
Definition degree (n : nid) (g : list stmt) : nat :=
  list_sum (map (fun x => match x with SEdge v w _ => vertex_is n v + vertex_is n w | _ => 0 end) g).

(** every vertex an edge uses has been declared *)
Definition declared (g : list stmt) : Prop :=
  forall v w l, In (SEdge v w l) g -> (exists l1 b1, In (SNode v l1 b1) g) /\ (exists l2 b2, In (SNode w l2 b2) g).
