(** * Refutations for matrix product states *)
From Coq Require Import List ZArith Lia Permutation QArith Qcanon.
From Verif Require Import Prelude Res Algebra Tensor Ncon BlockSparse Backends DecompFacts Mps MpsSpec MpsExamples P_Mps.
Import ListNotations.
Set Implicit Arguments.
Unset Strict Implicit.
Local Open Scope nat_scope.

Definition gid : tensor Q_cjr := Tensor [2; 2; 2; 2] (fun ix => if (nth 0 ix 0 =? nth 2 ix 0) && (nth 1 ix 0 =? nth 3 ix 0) then r1 else r0).
Lemma not_right_iso (t : tensor Q_cjr) : (0 <? nth 0 (shape t) 0) = true ->
  qeqb (nsum (nth 1 (shape t) 0) (fun s => nsum (nth 2 (shape t) 0) (fun c => (elt t [0; s; c] *! elt t [0; s; c])%R))) r1 = false -> ~ right_iso t.
Proof. intros L H I. apply Nat.ltb_lt in L. specialize (I 0 0 L L). cbn [Nat.eqb] in I. unfold qeqb in H. destruct (Qc_eq_dec _ _) as [|N]; [discriminate|]. apply N. exact I. Qed.

(** base_mps.py:481-596: without truncation arguments the split is a QR decomposition whose isometry is the left
    tensor, yet [site1] is recorded as the centre: a canonical state, the identity gate, and the tensor right
    of the recorded centre is not right isometric. *)
Theorem C35_two_site_centre_refuted : exists (m m' : mps Q_cjr) (gate : tensor Q_cjr) c s,
  qr_ok qrx /\ svd_ok svdx /\ chain 1 (tens m) 4 /\ centre m = Some c /\ canonical (tens m) c /\
  (forall ix, valid ix [2; 2; 2; 2] -> elt gate ix = if (nth 0 ix 0 =? nth 2 ix 0) && (nth 1 ix 0 =? nth 3 ix 0) then r1 else r0) /\
  twox gate 0%Z 1%Z None None None false m = Ok (m', []) /\ centre m' = Some s /\ ~ canonical (tens m') s.
Proof.
  assert (match twox gid 0%Z 1%Z None None None false xm with
          | Ok (m, tw) => tw = [] /\ centre m = Some 0 /\ (match nth_error (tens m) 1 with Some t => (0 <? nth 0 (shape t) 0) = true /\
              qeqb (nsum (nth 1 (shape t) 0) (fun s => nsum (nth 2 (shape t) 0) (fun c => (elt t [0; s; c] *! elt t [0; s; c])%R))) r1 = false | None => False end)
          | _ => False end) as K by (vm_compute; repeat split; reflexivity).
  exists xm. destruct (twox gid 0%Z 1%Z None None None false xm) as [[m' tw]| |] eqn:H; [|contradiction K..].
  exists m', gid, 0, 0. split; [exact qrx_ok|]. split; [exact svdx_ok|]. split; [exact xchain|]. split; [reflexivity|]. split; [exact xcanon|].
  split; [reflexivity|].
  destruct K as (-> & K2 & K4). split; [exact H|]. split; [exact K2|].
  intros C. destruct (nth_error (tens m') 1) as [t|] eqn:Et; [|contradiction]. destruct K4 as [K4 K5].
  exact (not_right_iso K4 K5 (proj2 (C 1 t Et) ltac:(lia))).
Qed.
Print Assumptions C35_two_site_centre_refuted.

(** 598-614: a gate that is not an isometry applied away from the centre leaves the recorded centre, although
    the tensor is no longer isometric. *)
Theorem C35_one_site_centre_refuted : exists (m m' : mps Q_cjr) (gate : tensor Q_cjr) c,
  chain 1 (tens m) 4 /\ centre m = Some c /\ canonical (tens m) c /\
  apply_one_site_gate idz gate 1%Z m = Ok m' /\ centre m' = Some c /\ ~ canonical (tens m') c.
Proof.
  assert (match apply_one_site_gate idz g1 1%Z xm with
          | Ok m => centre m = Some 0 /\ (match nth_error (tens m) 1 with Some t => (1 <? nth 0 (shape t) 0) = true /\
              qeqb (nsum (nth 1 (shape t) 0) (fun s => nsum (nth 2 (shape t) 0) (fun c => (elt t [1; s; c] *! elt t [1; s; c])%R))) r1 = false | None => False end)
          | _ => False end) as K by (vm_compute; repeat split; reflexivity).
  exists xm. destruct (apply_one_site_gate idz g1 1%Z xm) as [m'| |] eqn:H; [|contradiction K..].
  exists m', g1, 0. split; [exact xchain|]. split; [reflexivity|]. split; [exact xcanon|]. split; [exact H|].
  destruct K as (K1 & K3). split; [exact K1|]. intros C. destruct (nth_error (tens m') 1) as [t|] eqn:Et; [|contradiction]. destruct K3 as [K4 K5].
  pose proof (proj2 (C 1 t Et) ltac:(lia)) as I. apply Nat.ltb_lt in K4. specialize (I 1 1 K4 K4). cbn [Nat.eqb] in I.
  unfold qeqb in K5. destruct (Qc_eq_dec _ _) as [|N]; [discriminate|]. apply N. exact I.
Qed.
Print Assumptions C35_one_site_centre_refuted.
