(** * GraphExamples: a concrete network used by the examples of the property files *)
From Coq Require Import ZArith.
From Verif Require Import Prelude Algebra Tensor TensorFacts Einsum EinsumFacts NetworkFacts Graph GraphBase GraphContract GraphOps GraphValue GraphOuter GraphConnect GraphProg GraphSched.
Set Implicit Arguments.
Unset Strict Implicit.

(** entries 1, 2, 3, ... in row-major order, shifted by k *)
Definition zt (k : Z) (sh : list nat) : tensor Z_csr := @Tensor Z_csr sh (fun ix => (Z.of_nat (ravel sh ix) + k)%Z).

Definition idl (l : list nat) : list nat := l.
Definition rvl (l : list nat) : list nat := rev l.
Lemma idl_perm l : Permutation (idl l) l.
Proof. apply Permutation_refl. Qed.
Lemma rvl_perm l : Permutation (rvl l) l.
Proof. apply Permutation_sym, Permutation_rev. Qed.

Definition run {A} (m : @M Z_csr A) (s : @st Z_csr) : @st Z_csr := fst (m s).
Lemma run_eq A (m : @M Z_csr A) s x : snd (m s) = Some x -> m s = (run m s, Some x).
Proof. unfold run. intros <-. apply surjective_pairing. Qed.

(** Node 0: 2x3x2x2, axes 2 and 3 traced; node 1: 3x2x2, two edges shared with node 0;
    node 2: 2x2, one edge shared with node 1, axis 1 dangling. *)
Definition ex_ops : list (@op Z_csr) :=
  [OpNode (zt 1 [2; 3; 2; 2]) None; OpNode (zt (-3) [3; 2; 2]) None; OpNode (zt 2 [2; 2]) None;
   OpConnect (0, 0) (1, 1); OpConnect (0, 1) (1, 0); OpConnect (0, 3) (0, 2); OpConnect (1, 2) (2, 0)].
Definition ex_s : @st Z_csr := run (exec_ops idl ex_ops) (@empty_st Z_csr).

Lemma ex_wf : wf ex_s.
Proof.
  apply (@exec_ops_wf Z_csr idl idl_perm ex_ops (@empty_st Z_csr) ex_s tt empty_wf).
  apply run_eq. vm_compute. reflexivity.
Qed.

(** the entries of a node *)
Definition entries (s : @st Z_csr) (n : nid) : option (list nat * list Z) :=
  match s_nodes s n with
  | Some nd => Some (shape (n_t nd), map (elt (n_t nd)) (idxs (shape (n_t nd))))
  | None => None
  end.
Definition edges_at (s : @st Z_csr) (n : nid) : option (list eid) := option_map (fun nd => n_edges nd) (s_nodes s n).

Lemma ex_net : network ex_s [0; 1; 2].
Proof.
  split; [repeat constructor; cbn; intuition congruence|]. intros n [<-|[<-|[<-|[]]]]; vm_compute; discriminate.
Qed.
