(** * Refuted claims about ncon: witnesses of behaviour recorded in DESIGN.md, Findings *)
From Coq Require Import ZArith String Sorting.Sorted Permutation.
From Verif Require Import Prelude Algebra Tensor Einsum Ncon NconSpec NconTop NconCheck NconMain NconExamples.
Set Implicit Arguments.
Unset Strict Implicit.
Open Scope list_scope.
Open Scope string_scope.
Open Scope nat_scope.

Ltac accepted := apply check_network_iff; vm_compute; reflexivity.

(** "with check_network=True an accepted network yields a tensor with one axis per open label":
    an open label twice on one tensor is traced (241-277) *)
Theorem open_label_traced_refuted : exists (ts : list (tensor Z_csr)) ns t,
  Valid ns (map (@shape Z_csr) ts) None None /\ lists_open ns [I (-1)] /\
  ncon idz true ts ns None None = Ok t /\ shape t = [].
Proof.
  exists [tz 1 [2; 2]], [[I (-1); I (-1)]]. eexists.
  split; [accepted|]. split; [|split; vm_compute; reflexivity].
  split; [repeat constructor; auto|]. intros l. cbn. split; [intros [<-|[]]; split; [tauto|constructor; reflexivity] | tauto].
Qed.
Print Assumptions open_label_traced_refuted.

(** "a closed label on three axes is one summation index": when two of the axes belong to the same
    tensor, they are traced first and the remaining axis is summed on its own *)
Theorem batch_trace_refuted : exists dim (ts : list (tensor Z_csr)) ns t,
  Valid ns (map (@shape Z_csr) ts) None None /\ sized dim ts ns /\ lists_closed ns [I 1] /\
  ncon idz true ts ns None None = Ok t /\
  elt t [] <> einsum label_dec dim [I 1] (network ts ns) (fun _ => 0).
Proof.
  exists (fun _ => 2), [tz 1 [2; 2]; tz 1 [2]], [[I 1; I 1]; [I 1]]. eexists.
  split; [accepted|]. split; [sizes|]. split; [|split; [vm_compute; reflexivity|vm_compute; discriminate]].
  split; [repeat constructor; auto|]. intros l. cbn. split; [intros [<-|[]]; split; [tauto|apply is_out_not; reflexivity] | tauto].
Qed.
Print Assumptions batch_trace_refuted.

(** "accepted networks are contracted": summed labels on two tensors raise (415-424) *)
Theorem two_single_labels_refuted : exists (ts : list (tensor Z_csr)) ns,
  Valid ns (map (@shape Z_csr) ts) None None /\ ordinary ns /\ ncon idz true ts ns None None = Raise.
Proof.
  exists [tz 1 [2]; tz 1 [2]], [[I 1]; [I 2]]. split; [accepted|]. split; [|vm_compute; reflexivity].
  intros ls l H. cbn in H. repeat (destruct H as [<-|H]); try contradiction; intros Hl; cbn in Hl; repeat (destruct Hl as [<-|Hl]); try contradiction; left; reflexivity.
Qed.
Print Assumptions two_single_labels_refuted.

(** a network contracted over batch labels only is reported as an infinite loop (441-451) *)
Theorem only_batch_refuted : exists (ts : list (tensor Z_csr)) ns,
  Valid ns (map (@shape Z_csr) ts) None None /\ ordinary ns /\ ncon idz true ts ns None None = Raise.
Proof.
  exists [tz 1 [2]; tz 1 [2]; tz 1 [2]], [[I 1]; [I 1]; [I 1]]. split; [accepted|]. split; [|vm_compute; reflexivity].
  intros ls l H. cbn in H. repeat (destruct H as [<-|H]); try contradiction; intros Hl; cbn in Hl; repeat (destruct Hl as [<-|Hl]); try contradiction; left; reflexivity.
Qed.
Print Assumptions only_batch_refuted.

(** the sizes of open batch labels are not compared (222-238): different sizes are accepted, and
    size 1 is broadcast in the batched product *)
Theorem open_sizes_unchecked_refuted : exists (ts : list (tensor Z_csr)) ns t,
  Valid ns (map (@shape Z_csr) ts) None None /\ ordinary ns /\ ~ open_sizes ns (map (@shape Z_csr) ts) /\
  ncon idz true ts ns None None = Ok t.
Proof.
  exists [tz 1 [2]; tz 1 [1]], [[I (-1)]; [I (-1)]]. eexists.
  split; [accepted|]. split; [|split; [|vm_compute; reflexivity]].
  - intros ls l H. cbn in H. repeat (destruct H as [<-|H]); try contradiction; intros Hl; cbn in Hl; repeat (destruct Hl as [<-|Hl]); try contradiction; left; reflexivity.
  - intros H. assert (2 = 1) by (apply (H (I (-1))); [constructor; reflexivity | exists 0, 0; auto | exists 1, 0; auto]). discriminate.
Qed.
Print Assumptions open_sizes_unchecked_refuted.
