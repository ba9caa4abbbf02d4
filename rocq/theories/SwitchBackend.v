(** * SwitchBackend: model of switch_backend (network_operations.py).
    A node is its backend and its array; [conv] converts an array to a backend. *)
From Coq Require Import String.
From Verif Require Import Prelude.
Set Implicit Arguments.
Unset Strict Implicit.
Open Scope string_scope.

Section Switch.
  Variable A : Type.
  Variable conv : string -> A -> A.
  (** nodes by number *)
  Definition nodes := nat -> string * A.
  Definition set_node (h : nodes) (n : nat) (v : string * A) : nodes := fun m => if Nat.eqb m n then v else h m.
  (** backend_factory.py 22-28 [_BACKENDS] *)
  Definition known : list string := ["tensorflow"; "numpy"; "jax"; "pytorch"; "symmetric"].
  (** network_operations.py 814-820; [false] is the exception, with the nodes as they are then *)
  Fixpoint switch_loop (new : string) (ns : list nat) (h : nodes) : nodes * bool :=
    match ns with
    | [] => (h, true)
    | n :: r => if String.eqb (fst (h n)) "numpy" then switch_loop new r (set_node h n (new, conv new (snd (h n)))) else (h, false)
    end.
  (** network_operations.py 794-820 [switch_backend] *)
  Definition switch_backend (new : string) (ns : list nat) (h : nodes) : nodes * bool :=
    if String.eqb new "symmetric" then (h, forallb (fun n => String.eqb (fst (h n)) "symmetric") ns)
    else if existsb (String.eqb new) known then switch_loop new ns h
    else (h, false).
End Switch.
