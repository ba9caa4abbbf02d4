(** * R_Topo: from_topology rejects letters that stand twice in one part *)
From Coq Require Import List Lia ZArith.
From Verif Require Import Prelude Algebra Tensor Einsum Graph Topo TopoSpec.
Import ListNotations.

(** "Should be like the left side of an einsum expression": "xx" names the trace of a matrix, but the letters are also the
    axis names of the node, which must differ. *)
Theorem C62_trace_refuted : exists parts (ts : list (tensor Z_csr)) dim, length parts = length ts /\ Forall2 (fun cs t => shape t = map dim cs) parts ts /\
  (forall c, count_occ Nat.eq_dec (concat parts) c <= 2) /\ (forall cs, In cs parts -> ~ In 44 cs) /\
  value Nat.eq_dec dim (combine ts parts) (fun _ => 0) = 5%Z /\ snd (from_topology (commas parts) ts empty_st) = None.
Proof.
  exists [[120; 120]], [Tensor [2; 2] (fun ix => Z.of_nat (1 + ravel [2; 2] ix) : Z_csr)], (fun _ => 2).
  split; [reflexivity|]. split; [repeat constructor|]. split; [|split; [|split; vm_compute; reflexivity]].
  - intros c. cbn [concat app count_occ]. destruct (Nat.eq_dec 120 c); lia.
  - intros cs [<-|[]]. cbn. intuition discriminate.
Qed.
Print Assumptions C62_trace_refuted.
