(** * R_Sat: problems whose clauses do not link all variables are not counted *)
From Coq Require Import List Lia ZArith Bool.
From Verif Require Import Prelude Algebra Tensor Graph GraphBase GraphJoin GraphLaws GraphContract GraphValue GraphQuery Sat SatSpec.
Import ListNotations.

(** "the final node will be the count of all possible solutions" (sat_tensornetwork.py:101-105) is false for the clause
    (3, 3, 3): variables 1 and 2 are free, so there are 4 solutions, but only the two nodes of variable 1 are returned. *)
Theorem C60_unlinked_refuted : exists cs : list (Z * Z * Z), exists n,
  (forall x y z, In (x, y, z) cs -> x <> 0%Z /\ y <> 0%Z /\ z <> 0%Z) /\ largest cs n /\
  let r := sat_count_tn (R := Z_cjr) (fun l => l) cs empty_st in
  exists l, snd r = Some l /\ length l = 2 /\ netval (fst r) l (fun _ => 0) = 2%Z /\ solutions n cs = 4.
Proof.
  exists [(3, 3, 3)]%Z, 3. split; [intros x y z [H|[]]; injection H as <- <- <-; lia|]. split.
  - split; [exists (3, 3, 3)%Z; split; left; reflexivity|]. intros c v [<-|[]] [<-|[<-|<-]]; cbn; lia.
  - eexists. split; [vm_compute; reflexivity|]. split; [reflexivity|]. split; vm_compute; reflexivity.
Qed.
Print Assumptions C60_unlinked_refuted.

(** also when every variable occurs: (1 or 1 or 1) and (2 or 3 or 4) has 7 solutions; only the nodes of variable 1 are returned *)
Theorem C60_two_parts_refuted : exists cs : list (Z * Z * Z), exists n,
  (forall v, 1 <= v <= n -> exists c, In c cs /\ occurs v c) /\ largest cs n /\
  let r := sat_count_tn (R := Z_cjr) (fun l => l) cs empty_st in
  exists l, snd r = Some l /\ length l = 10 /\ netval (fst r) l (fun _ => 0) = 1%Z /\ solutions n cs = 7.
Proof.
  exists [(1, 1, 1); (2, 3, 4)]%Z, 4. split; [|split].
  - intros v Hv. destruct v as [|[|[|[|[|]]]]]; try lia; [exists (1, 1, 1)%Z|exists (2, 3, 4)%Z|exists (2, 3, 4)%Z|exists (2, 3, 4)%Z]; cbn; auto.
  - split; [exists (2, 3, 4)%Z; split; [right; left; reflexivity|right; right; reflexivity]|]. intros c v [<-|[<-|[]]] [<-|[<-|<-]]; cbn; lia.
  - eexists. split; [vm_compute; reflexivity|]. split; [reflexivity|]. split; vm_compute; reflexivity.
Qed.
Print Assumptions C60_two_parts_refuted.
