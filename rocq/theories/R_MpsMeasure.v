(** * Refutations for the measurements of matrix product states *)
From Coq Require Import List ZArith Lia Permutation QArith Qcanon.
From Verif Require Import Prelude Res Algebra Tensor Ncon Mps MpsSpec MpsMeasureSpec MpsExamples P_Mps P_MpsMeasure.
Import ListNotations.
Set Implicit Arguments.
Unset Strict Implicit.
Local Open Scope nat_scope.

Definition corr3 (s1 s : nat) : Q_cjr := expectation 1 1 (tens m3) (sitewise 3 (fun i =>
               if (i =? s1) && (i =? s) then matmat q1 q2 else if i =? s1 then mat q1 else if i =? s then mat q2 else ident)).
Lemma this_neq (a b : Qc) : Qeq_bool (this a) (this b) = false -> a <> b.
Proof. intros H <-. assert (Qeq_bool (this a) (this a) = true) by (apply Qeq_bool_iff; reflexivity). congruence. Qed.

(** base_mps.py:336-337 documents the correlators "for s in sites2": the results are not in the order of
    [sites2], and a site named twice gives one result *)
Theorem C36_order_refuted : exists (m : mps Q_cjr) (o1 o2 : tensor Q_cjr) v v0 v2,
  measure_two_body_correlator idz m o1 o2 1%Z [0]%Z = Ok [v0] /\ measure_two_body_correlator idz m o1 o2 1%Z [2]%Z = Ok [v2] /\
  measure_two_body_correlator idz m o1 o2 1%Z [2; 0; 0]%Z = Ok v /\ v <> [v2; v0; v0] /\ v <> [v2; v0] /\ length v = 2.
Proof.
  assert (match measure_two_body_correlator idz m3 q1 q2 1%Z [0]%Z, measure_two_body_correlator idz m3 q1 q2 1%Z [2]%Z,
                measure_two_body_correlator idz m3 q1 q2 1%Z [2; 0; 0]%Z with
          | Ok [v0], Ok [v2], Ok [a; b] => Qeq_bool (this a) (this v2) = false | _, _, _ => False end) as K by (vm_compute; reflexivity).
  exists m3, q1, q2.
  destruct (measure_two_body_correlator idz m3 q1 q2 1%Z [0]%Z) as [[|v0 [|]]| |]; try contradiction K.
  destruct (measure_two_body_correlator idz m3 q1 q2 1%Z [2]%Z) as [[|v2 [|]]| |]; try contradiction K.
  destruct (measure_two_body_correlator idz m3 q1 q2 1%Z [2; 0; 0]%Z) as [[|a [|b [|]]]| |]; try contradiction K.
  exists [a; b], v0, v2. repeat split; try reflexivity; intros E; [discriminate E|]. apply (this_neq K). injection E as E _. exact E.
Qed.
Print Assumptions C36_order_refuted.

(** 361-364, 394, 462: the second site is taken modulo the length, also for a finite chain.  A site past the end
    is not rejected: a value is returned, and it is no correlator of the state with any of its sites. *)
Theorem C36_out_of_range_refuted : exists (m : mps Q_cjr) (o1 o2 : tensor Q_cjr) v,
  chain 1 (tens m) 1 /\ length (tens m) = 3 /\ measure_two_body_correlator idz m o1 o2 2%Z [4]%Z = Ok [v] /\
  forall s, s < 3 -> v <> expectation 1 1 (tens m) (sitewise 3 (fun i =>
    if (i =? 2) && (i =? s) then matmat o1 o2 else if i =? 2 then mat o1 else if i =? s then mat o2 else ident)).
Proof.
  assert (match measure_two_body_correlator idz m3 q1 q2 2%Z [4]%Z with
          | Ok [v] => forallb (fun s => negb (Qeq_bool (this v) (this (corr3 2 s)))) [0; 1; 2] = true | _ => False end) as K by (vm_compute; reflexivity).
  exists m3, q1, q2. destruct (measure_two_body_correlator idz m3 q1 q2 2%Z [4]%Z) as [[|v [|]]| |]; try contradiction K.
  exists v. split; [exact m3_chain|]. split; [reflexivity|]. split; [reflexivity|]. intros s Hs. apply this_neq.
  rewrite forallb_forall in K. specialize (K s). apply Bool.negb_true_iff in K; [exact K|].
  destruct s as [|[|[|s]]]; cbn; auto; lia.
Qed.
Print Assumptions C36_out_of_range_refuted.
