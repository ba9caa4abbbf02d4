(** * QuantumSpec: what it means for an operator object to denote a matrix *)
From Verif Require Import Prelude Algebra Tensor Einsum EinsumFacts NetworkFacts Graph GraphBase GraphConnect GraphContract GraphValue GraphQuery GraphQueryFacts GraphCopy GraphCopyFacts Quantum.
Set Implicit Arguments.
Unset Strict Implicit.

Definition q_edges (q : quop) : list eid := q_out q ++ q_in q ++ q_ign q.

Section QuantumSpec.
  Context {R : cjr}.
  Notation st := (@st R).
  Implicit Types (s : st) (q : quop) (e : eid) (n m : nid).

  (** [q] is an operator whose network consists of the nodes [ns]: these are the nodes connected to the edges and the
      reference nodes of [q], and the out, in and ignored edges are different edges, namely the loose ends of [ns] *)
  Record oper s q (ns : list nid) : Prop := {
    op_nodup : NoDup ns;
    op_nodes : forall m, In m ns <-> exists n, ((exists e, In e (q_out q ++ q_in q) /\ on s n e) \/ In n (q_ref q)) /\ connected s n m;
    op_edges : NoDup (q_edges q);
    op_open : forall e, In e (q_edges q) <-> exists n, In n ns /\ open_on s n e;
    op_some : ns <> [];
    op_node : forall n, In n ns -> is_node s n;
    op_named : forall n, In n ns -> named s n;
    op_cps : forall n, In n (q_cps q) -> In n ns
  }.

  (** no CopyNode of [q] has a trace edge that runs from a later axis to an earlier one *)
  Definition copyable s q : Prop :=
    forall n e ed a2, In n (q_cps q) -> on s n e -> s_edges s e = Some ed -> e_n1 ed = n -> e_2 ed = Some (n, a2) -> e_a1 ed < a2.

  (** the entry in row [i] and column [j], the ignored edges having the indices [g] *)
  Definition opval s ns q (v : list nat) : R := netval s ns (binds Nat.eq_dec (fun _ => 0) (q_edges q) v).
  Definition entry s ns q (i j g : list nat) : R := opval s ns q (i ++ j ++ g).
  (** dimensions of the rows, the columns and the ignored edges *)
  Definition rows s q : list nat := map (edim s) (q_out q).
  Definition cols s q : list nat := map (edim s) (q_in q).

  (** the old network is still there, and nothing new is attached to it *)
  Record kept s s' : Prop := {
    k_nodes : forall m, is_node s m -> s_nodes s' m = s_nodes s m;
    k_edges : forall m e, on s m e -> s_edges s' e = s_edges s e;
    k_sep : forall m n e, is_node s m -> on s' m e -> on s' n e -> is_node s n
  }.
  (** none of the nodes existed before *)
  Definition fresh_nodes s (ns : list nid) : Prop := forall n, In n ns -> ~ is_node s n.

  (** [q'] with the nodes [ns'] is a new operator in the later heap [s'] *)
  Record made s s' q' (ns' : list nid) : Prop := {
    md_wf : wf s';
    md_kept : kept s s';
    md_fresh : fresh_nodes s ns';
    md_oper : oper s' q' ns'
  }.

  (** index lists: the entries of [l] at the positions [ts]; those at the other positions; [l] with [vs] at the positions [ts] *)
  Definition pick (ts : list nat) (l : list nat) : list nat := map (fun k => nth k l 0) ts.
  Definition drop_at (ts : list nat) (l : list nat) : list nat :=
    map (fun k => nth k l 0) (filter (fun k => negb (mem k ts)) (seq 0 (length l))).
  Definition put_at (ts vs : list nat) (l : list nat) : list nat :=
    map (fun k => if mem k ts then nth (nindex k ts) vs 0 else nth k l 0) (seq 0 (length l)).
End QuantumSpec.
