(** * Sat: networks for 3SAT problems (examples/sat/sat_tensornetwork.py)

    Model of [sat_tn] and [sat_count_tn] on the heap of Graph.v.  The int32 entries of the tensors are elements of any
    commutative semiring (so also of the integers modulo 2^32). *)
From Coq Require Import List ZArith.
From Verif Require Import Prelude Algebra Tensor Graph GraphQuery CopyTensor.
Import ListNotations.
Set Implicit Arguments.
Unset Strict Implicit.

Section Sat.
  Context {R : cjr}.
  Notation M := (@M R).
  Notation "x <- m ;; k" := (bind m (fun x => k)) (at level 61, m at next level, right associativity).
  Notation "m ;;; k" := (bind m (fun _ => k)) (at level 61, right associativity).

  (** a clause: a tuple of three integers *)
  Definition clause := (Z * Z * Z)%type.
  Definition lits (c : clause) : list Z := let '(x, y, z) := c in [x; y; z].

  (** sat_tensornetwork.py:70-73: the variables of all clauses; [max] of an empty set raises *)
  Definition num_vars (cs : list clause) : option nat :=
    match flat_map (fun c => map Z.abs_nat (lits c)) cs with
    | [] => None
    | v :: vs => Some (fold_left Nat.max vs v)
    end.
  (** 78-81: np.ones(2) *)
  Definition var_tensor : tensor R := Tensor [2] (fun _ => r1).
  Fixpoint var_nodes (n : nat) : M (list eid) :=
    match n with
    | 0 => ret []
    | S n' => v <- new_node var_tensor None ;; e <- edge_of v 0 ;; es <- var_nodes n' ;; ret (e :: es)
    end.
  (** 86-88: np.ones((2, 2, 2)) with 0 at ((-sign + 1) // 2, ...) *)
  Definition zero_at (x : Z) : Z := ((- Z.sgn x + 1) / 2)%Z.
  Definition clause_tensor (c : clause) : tensor R :=
    Tensor [2; 2; 2] (fun ix => if list_eq_dec Z.eq_dec (map Z.of_nat ix) (map zero_at (lits c)) then r0 else r1).
  (** 92-96: for i, var in enumerate(clause) *)
  Fixpoint join_lits (cn : nid) (i : nat) (xs : list Z) (vars : list eid) : M (list eid) :=
    match xs with
    | [] => ret vars
    | x :: xs' =>
        let k := Z.abs_nat x - 1 in
        copy <- new_copy_node 3 2 None ;;
        c <- edge_of cn i ;; c0 <- edge_of copy 0 ;; connect c c0 ;;;
        match nth_error vars k with
        | None => fail
        | Some v => c1 <- edge_of copy 1 ;; connect v c1 ;;;
            c2 <- edge_of copy 2 ;; join_lits cn (S i) xs' (replace_nth k c2 vars)
        end
    end.
  (** 84-96: for clause in clauses *)
  Fixpoint join_clauses (cs : list clause) (vars : list eid) : M (list eid) :=
    match cs with
    | [] => ret vars
    | c :: cs' => cn <- new_node (clause_tensor c) None ;; vars' <- join_lits cn 0 (lits c) vars ;; join_clauses cs' vars'
    end.
  (** 46-98 [sat_tn] *)
  Definition sat_tn (cs : list clause) : M (list eid) :=
    guard (negb (existsb (fun c => existsb (Z.eqb 0) (lits c)) cs)) ;;;
    match num_vars cs with
    | None => fail
    | Some n => vars <- var_nodes n ;; join_clauses cs vars
    end.

  Variable iter : list nat -> list nat.
  (** 117-118: for edge1, edge2 in zip(var_edges1, var_edges2) *)
  Fixpoint join_vars (es fs : list eid) : M unit :=
    match es, fs with e :: es', f :: fs' => connect e f ;;; join_vars es' fs' | _, _ => ret tt end.
  (** 101-120 [sat_count_tn]: var_edges1[0].node1 is read from the edge object that was connected *)
  Definition sat_count_tn (cs : list clause) : M (list nid) :=
    vars1 <- sat_tn cs ;; vars2 <- sat_tn cs ;;
    join_vars vars1 vars2 ;;;
    match vars1 with
    | [] => fail
    | e :: _ => d <- get_edge e ;; reachable iter [e_n1 d]
    end.
End Sat.
