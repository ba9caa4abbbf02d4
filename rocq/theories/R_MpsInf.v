(** * Parts of C58 that the code does not satisfy *)
From Coq Require Import List ZArith Lia Permutation Reals Lra.
From Verif Require Import Prelude Res Algebra Tensor TensorFacts DecompFacts Mps MpsSpec MpsState
  MpsInf MpsInfSpec MpsInfFacts KrylovInst MpsInfExample.
Import ListNotations.
Set Implicit Arguments.
Unset Strict Implicit.
Local Open Scope nat_scope.
Local Open Scope csr_scope.

(** The transfer operators leave out the connecting matrix.  The result of [canonicalize] for a state with a connecting
    matrix is not in the canonical form: the state of MpsInfExample.v with the connecting matrix diag(1, 2). *)
Theorem C58_connector_refuted : exists (m m' : imps K) nl c, iconn m <> None /\ ex_canonicalize m = Ok (m', nl) /\ iconn m' = Some c /\
  shape c = [2; 2] /\ chain 2 (tens (icell m')) 2 /\ phys (tens (icell m')) = [2] /\ ~ left_normal 2 [2] (cell (tens (icell m')) (Some c)).
Proof.
  destruct (@ex_run (Some (diag2 1 2)) 1%re 2%re) as (t & c & nl & kc & m & Kc & Km & H & St & Vt & Sc & C00 & C01 & C10 & C11); [repeat split | lra | lra|].
  exists (ex_state (Some (diag2 1 2))), (IMPS (MPS [t] (Some 0)) (Some c)), nl, c. split; [discriminate|]. split; [exact H|]. split; [reflexivity|]. split; [exact Sc|].
  split; [exists 2, 2; split; [exact St | reflexivity]|]. split; [cbn [icell tens phys map]; rewrite St; reflexivity|].
  cbn [icell tens]. intros L.
  assert (forall f : nat -> K, nsum 2 f = (f 0%nat + (f 1%nat + 0))%re) as N2 by reflexivity.
  assert (forall f : list nat -> K, lsum (idxs [2]) f = (f [0%nat] + (f [1%nat] + 0))%re) as L2 by reflexivity.
  assert (forall a s b, a < 2 -> s < 2 -> b < 2 -> cell [t] (Some c) a [s] b = (kc * m * elt exA [a; s; b]%nat * if b =? 0 then 1 else 2)%re) as Cell.
  { intros a s b Ha Hs Hb. unfold cell. rewrite Sc. cbn [nth]. rewrite N2. cbn [amp]. rewrite St. cbn [nth].
    rewrite (nsum_delta_r (fun c => elt t [a; s; c]) (b := 0)), (nsum_delta_r (fun c => elt t [a; s; c]) (b := 1)) by lia. rewrite !Vt by lia.
    small b; rewrite ?C00, ?C01, ?C10, ?C11; cbn [Nat.eqb rmul cbase Rb_cjr Rb_csr]; change (car Rb_csr) with R; field. }
  pose proof (L 0 0 ltac:(lia) ltac:(lia)) as E0. pose proof (L 1 1 ltac:(lia) ltac:(lia)) as E1.
  rewrite !N2, !L2 in E0, E1. rewrite !Cell in E0, E1 by lia. cbn in E0, E1. change (car Rb_csr) with R in *. set (z := (kc * m)%re) in *. clearbody z. nra.
Qed.
Print Assumptions C58_connector_refuted.

(** [if not initial_state]: the truth value of an array with more than one entry raises, so every initial state of a bond
    dimension above one raises, whatever the library functions return *)
Theorem C58_initial_state_refuted : exists (ts : list (Tensor.tensor Z_cjr)) x, chain 2 ts 2 /\ shape x = [2; 2] /\
  forall iter nrm rdiv eigs rnd isz d, transfer_matrix_eigs iter nrm rdiv eigs rnd isz ts d (Some x) = Raise.
Proof.
  exists [Tensor (R := Z_cjr) [2; 2; 2] (fun _ => 1%Z)], (Tensor (R := Z_cjr) [2; 2] (fun _ => 1%Z)). split; [exists 2, 2; split; reflexivity|]. split; reflexivity.
Qed.
Print Assumptions C58_initial_state_refuted.
