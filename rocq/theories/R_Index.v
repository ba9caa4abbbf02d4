(** * Parts of C64 that the code does not satisfy *)
From Coq Require Import ZArith.
From Verif Require Import Prelude Res Charge ChargeInst BlockSparse IndexOps IndexSpec.
Set Implicit Arguments.
Unset Strict Implicit.

(** [Index.__eq__] does not compare the charge types: a U1 and a Z2 index are equal although their charges fuse
    differently (so [_sub_add_protection], which asks [__eq__], lets tensors of different symmetries be added). *)
Theorem C64_types_refuted : exists i j : tindex, tindex_eq i j = true /\ tindex_eq j i = true /\
  map ctypes (fst i) = [[U1]; [U1]] /\ map ctypes (fst j) = [[Z2]; [Z2]] /\
  (forall c, In c (fst i) -> forallb (ok_row [U1]) (crows c) = true) /\ (forall c, In c (fst j) -> forallb (ok_row [Z2]) (crows c) = true) /\
  exists c d, tfuse i = Ok c /\ tfuse j = Ok d /\ crows c <> crows d.
Proof.
  exists ([TCh [U1] [[0]; [1]]%Z; TCh [U1] [[0]; [1]]%Z], [false; false]), ([TCh [Z2] [[0]; [1]]%Z; TCh [Z2] [[0]; [1]]%Z], [false; false]).
  split; [reflexivity|]. split; [reflexivity|]. split; [reflexivity|]. split; [reflexivity|].
  split; [intros c [<-|[<-|[]]]; reflexivity|]. split; [intros c [<-|[<-|[]]]; reflexivity|].
  eexists; eexists. split; [reflexivity|]. split; [reflexivity|]. vm_compute. discriminate.
Qed.
Print Assumptions C64_types_refuted.

(** Fusing charges of different types is accepted and follows the rule of the left operand: a U1 charge fused with a
    Z2 charge is a U1 charge, in the other order a Z2 charge with another value. *)
Theorem C64_mixed_refuted : exists c d : tch,
  forallb (ok_row (ctypes c)) (crows c) = true /\ forallb (ok_row (ctypes d)) (crows d) = true /\
  forallb (ok_row (ctypes (tadd c d))) (crows (tadd c d)) = true /\ forallb (ok_row (ctypes (tadd d c))) (crows (tadd d c)) = true /\
  ctypes (tadd c d) <> ctypes (tadd d c) /\ crows (tadd c d) <> crows (tadd d c).
Proof.
  exists (TCh [U1] [[1]]%Z), (TCh [Z2] [[1]]%Z). split; [reflexivity|]. split; [reflexivity|]. split; [reflexivity|].
  split; [reflexivity|]. split; [cbn; discriminate|]. vm_compute. discriminate.
Qed.
Print Assumptions C64_mixed_refuted.
