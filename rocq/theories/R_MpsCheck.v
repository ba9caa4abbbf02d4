(** * Parts of C63 that the code does not satisfy *)
From Coq Require Import List ZArith.
From Verif Require Import Prelude Res Algebra Tensor Mps MpsSpec MpsInf MpsCheck MpsCheckFacts.
Import ListNotations.
Set Implicit Arguments.
Unset Strict Implicit.
Local Open Scope nat_scope.

(** A chain of one site is canonical about its only site, but [check_canonical] takes [deviations[0]] of an empty
    list and raises, whatever the tensor. *)
Theorem C63_single_site_refuted : exists m : mps Z_cjr,
  chain 1 (tens m) 1 /\ centre m = Some 0 /\ canonical (tens m) 0 /\
  forall iter sub sqrtf, finite_check_canonical iter sub sqrtf (IMPS m None) = Raise /\
    base_check_canonical iter sub sqrtf (IMPS m None) = Raise.
Proof.
  exists (MPS [Tensor (R := Z_cjr) [1; 2; 1] (fun ix => match ix with [_; 0; _] => 1%Z | _ => 0%Z end)] (Some 0)).
  split; [exists 2, 1; split; reflexivity|]. split; [reflexivity|]. split.
  - intros [|[|i]] t H; cbn in H; try discriminate. split; intros L; inversion L.
  - intros iter sub sqrtf. unfold finite_check_canonical, base_check_canonical. cbn [icell centre].
    split; reflexivity.
Qed.
Print Assumptions C63_single_site_refuted.
