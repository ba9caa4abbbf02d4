(** * MpsCheck: the checks of the canonical form of a matrix product state,
    tensornetwork/matrixproductstates/base_mps.py and finite_mps.py.

    States are those of MpsInf.v (the connector matrix of a [FiniteMPS] is [None]).  [sub] is the subtraction,
    [sqrtf] the square root.  Node contractions are written as in Mps.v. *)
From Coq Require Import List ZArith.
From Verif Require Import Prelude Res Algebra Tensor Ncon BlockSparse Backends Mps MpsInf.
Import ListNotations.
Set Implicit Arguments.
Unset Strict Implicit.
Local Open Scope nat_scope.

Section MpsCheck.
  Context {R : cjr}.
  Variable iter : list Z -> list Z.
  Variable sub : R -> R -> R.
  Variable sqrtf : R -> R.

  (** base_mps.py:686-693: the two range checks of [get_tensor] *)
  Definition tensor_at (m : imps R) (site : Z) : res (tensor R) :=
    guard (0 <=? site)%Z (get_tensor iter m (Z.to_nat site)).

  (** base_mps.py:643-646: [result - backend.eye(N, M)] with [N], [M] the shape of [result] *)
  Definition sub_eye (t : tensor R) : tensor R :=
    Tensor (shape t) (fun ix => sub (elt t ix) (if nth 0 ix 0 =? nth 1 ix 0 then r1 else r0)).

  (** base_mps.py:616-649 [check_orthonormality]; [w] is the argument [which] *)
  Definition check_orthonormality (m : imps R) (w : dir) (site : Z) : res R :=
    rbind (match w with
           | DLeft => rbind (tensor_at m site) (fun t => con t (conj_t t) [0; 1] [0; 1])
           | DRight => rbind (tensor_at m site) (fun t => con t (conj_t t) [2; 1] [2; 1])
           | DOther => Raise
           end) (fun result =>
    let tmp := sub_eye result in
    rbind (ncon_z iter [tmp; conj_t tmp] [[1; 2]; [1; 2]]%Z) (fun s => Ok (sqrtf (elt s [])))).

  (** base_mps.py:663-670, finite_mps.py:157-165: the squared deviations of the sites [ns] *)
  Fixpoint deviations (m : imps R) (c : nat) (ns : list nat) : res (list R) :=
    match ns with
    | [] => Ok []
    | n :: r =>
        if n =? c then deviations m c r
        else rbind (check_orthonormality m (if n <? c then DLeft else DRight) (Z.of_nat n)) (fun d =>
             rbind (deviations m c r) (fun ds => Ok (rmul d d :: ds)))
    end.
  (** [sqrt(sum(deviations[1:], deviations[0]))] *)
  Definition total_deviation (m : imps R) (c : nat) : res R :=
    rbind (deviations m c (seq 0 (length (tens (icell m))))) (fun ds =>
    match ds with
    | [] => Raise
    | d :: r => Ok (sqrtf (fold_left radd r d))
    end).
  (** base_mps.py:652-671 [check_canonical]; without a centre it warns and returns [None] *)
  Definition base_check_canonical (m : imps R) : res (option R) :=
    match centre (icell m) with
    | None => Ok None
    | Some c => rbind (total_deviation m c) (fun x => Ok (Some x))
    end.
  (** finite_mps.py:148-166 [check_canonical] *)
  Definition finite_check_canonical (m : imps R) : res R :=
    match centre (icell m) with
    | None => Raise
    | Some c => total_deviation m c
    end.
End MpsCheck.
