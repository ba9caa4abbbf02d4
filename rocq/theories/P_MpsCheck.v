(** * C63: [check_orthonormality] and [check_canonical] measure how far a matrix product state is from canonical form *)
From Coq Require Import List ZArith Lia Permutation Reals Lra.
From Verif Require Import Prelude Res Algebra Tensor TensorFacts DecompFacts Mps MpsSpec MpsPosition
  MpsInf MpsCheck MpsCheckSpec MpsCheckFacts P_Mps KrylovInst.
Import ListNotations.
Set Implicit Arguments.
Unset Strict Implicit.
Local Open Scope nat_scope.
Local Open Scope csr_scope.

Section C63.
  Context {R : cjr}.
  Variable iter : list Z -> list Z.
  Hypothesis iter_perm : forall l, Permutation (iter l) l.
  Variable sub : R -> R -> R.
  Variable sqrtf : R -> R.
  Notation tensor := (Tensor.tensor R).
  Notation check := (check_orthonormality iter sub sqrtf).

  (** the value at every site of a chain, the connector matrix absorbed into the last tensor *)
  Theorem C63_orthonormality (m : imps R) l r : tens (icell m) <> [] -> chain l (tens (icell m)) r ->
    (forall k, iconn m = Some k -> exists r', shape k = [r; r']) ->
    exists us, absorbed (tens (icell m)) (iconn m) us /\ length us = length (tens (icell m)) /\
    forall i u, nth_error us i = Some u ->
      check m DLeft (Z.of_nat i) = Ok (sqrtf (left_distance sub u)) /\
      check m DRight (Z.of_nat i) = Ok (sqrtf (right_distance sub u)).
  Proof.
    intros Ne C K. destruct (@absorbed_exists R iter iter_perm m l r Ne C K) as (us & A & L & (r' & C') & T).
    exists us. split; [exact A|]. split; [exact L|]. intros i u Hu. destruct (chain_shape C' Hu) as (a & d & k & S).
    split; [exact (check_left iter_perm sub sqrtf (T _ _ Hu) S)|exact (check_right iter_perm sub sqrtf (T _ _ Hu) S)].
  Qed.

  (** sites out of range and other values of [which] raise *)
  Theorem C63_rejected (m : imps R) w site :
    (site < 0 \/ Z.of_nat (length (tens (icell m))) <= site)%Z \/ w = DOther -> check m w site = Raise.
  Proof.
    intros [H | ->]; [|reflexivity].
    assert (tensor_at iter m site = Raise) as E.
    { unfold tensor_at, get_tensor. destruct (0 <=? site)%Z eqn:B; [|reflexivity]. apply Z.leb_le in B. cbn [guard].
      replace (Z.to_nat site <? length (tens (icell m))) with false by (symmetry; apply Nat.ltb_ge; lia). reflexivity. }
    unfold check_orthonormality. destruct w; rewrite ?E; reflexivity.
  Qed.

  Theorem C63_no_centre (m : imps R) : centre (icell m) = None ->
    finite_check_canonical iter sub sqrtf m = Raise /\ base_check_canonical iter sub sqrtf m = Ok None.
  Proof. intros E. unfold finite_check_canonical, base_check_canonical. rewrite E. split; reflexivity. Qed.

  Hypothesis Hroot : sqrt_ok sqrtf.

  (** both variants return the distance from the canonical form about the centre *)
  Theorem C63_canonical (m : imps R) l r c : 2 <= length (tens (icell m)) -> chain l (tens (icell m)) r ->
    (forall k, iconn m = Some k -> exists r', shape k = [r; r']) -> centre (icell m) = Some c ->
    exists us, absorbed (tens (icell m)) (iconn m) us /\
      finite_check_canonical iter sub sqrtf m = Ok (sqrtf (distance sub us c)) /\
      base_check_canonical iter sub sqrtf m = Ok (Some (sqrtf (distance sub us c))).
  Proof.
    intros L2 C K Hc. assert (tens (icell m) <> []) as Ne by (intros E; rewrite E in L2; cbn in L2; lia).
    destruct (@absorbed_exists R iter iter_perm m l r Ne C K) as (us & A & L & (r' & C') & T). exists us. split; [exact A|].
    unfold finite_check_canonical, base_check_canonical. rewrite Hc.
    rewrite (@total_value R iter iter_perm sub sqrtf m us L T (fun i u Hu => chain_shape C' Hu) Hroot c) by lia.
    split; reflexivity.
  Qed.

  Hypothesis Hsub : sub_ok sub.
  Hypothesis Hdef : @definite R.

  (** the values vanish exactly for isometries and canonical chains *)
  Theorem C63_left_zero (t : tensor) : sqrtf (left_distance sub t) = r0 <-> left_iso t.
  Proof. rewrite left_sum, (root_zero (left_entries sub t) Hdef Hroot). apply left_zero, Hsub. Qed.
  Theorem C63_right_zero (t : tensor) : sqrtf (right_distance sub t) = r0 <-> right_iso t.
  Proof. rewrite right_sum, (root_zero (right_entries sub t) Hdef Hroot). apply right_zero, Hsub. Qed.
  Theorem C63_canonical_zero (ts : list tensor) c : sqrtf (distance sub ts c) = r0 <-> canonical ts c.
  Proof. rewrite distance_sum, (root_zero (entries sub ts c) Hdef Hroot). apply entries_zero, Hsub. Qed.

  (** a finite chain passes the check exactly when it is canonical about its centre *)
  Theorem C63_finite (m : mps R) l r c : 2 <= length (tens m) -> chain l (tens m) r -> centre m = Some c ->
    finite_check_canonical iter sub sqrtf (IMPS m None) = Ok r0 <-> canonical (tens m) c.
  Proof.
    intros L2 C Hc. destruct (@C63_canonical (IMPS m None) l r c L2 C ltac:(discriminate) Hc) as (us & A & F & _).
    cbn in A. subst us. cbn [icell] in F. rewrite F. rewrite <- C63_canonical_zero. split; congruence.
  Qed.

  (** so it passes after [position] moved the centre of a canonical chain *)
  Theorem C63_after_position (E : Type) qrf svdf nkeep (err_ge1 : E -> bool) nrm rdiv normalize D err l r (m m' : mps R) site z c :
    qr_ok qrf -> svd_ok svdf -> 2 <= length (tens m) -> chain l (tens m) r -> centre m = Some c -> canonical (tens m) c ->
    position iter qrf svdf nkeep err_ge1 nrm rdiv normalize D err m site = Ok (m', z) ->
    finite_check_canonical iter sub sqrtf (IMPS m' None) = Ok r0.
  Proof.
    intros Hqr Hsvd L2 C Hc A H.
    destruct (@C34_position R E iter qrf svdf nkeep err_ge1 nrm rdiv iter_perm Hqr Hsvd normalize D err l r m m' site z c C Hc H)
      as (s & _ & _ & Hs & C' & P & A' & _).
    apply (C63_finite (l := l) (r := r) (c := s)); [|exact C'|exact Hs|exact (A' A)].
    assert (length (phys (tens m')) = length (phys (tens m))) as E2 by congruence. unfold phys in E2. rewrite !map_length in E2. lia.
  Qed.
End C63.
Print Assumptions C63_orthonormality.
Print Assumptions C63_rejected.
Print Assumptions C63_no_centre.
Print Assumptions C63_canonical.
Print Assumptions C63_left_zero.
Print Assumptions C63_right_zero.
Print Assumptions C63_canonical_zero.
Print Assumptions C63_finite.
Print Assumptions C63_after_position.

(** the real numbers meet the hypotheses about numbers *)
Lemma real_sqabs_pos (l : list Rb_cjr) : (0 <= lsum l sqabs)%re.
Proof.
  induction l as [|x l IH]; [cbn; lra|]. rewrite lsum_cons. change (0 <= x * x + lsum l sqabs)%re. pose proof (Rle_0_sqr x) as H. unfold Rsqr in H.
  change (car Rb_cjr) with R in *. lra.
Qed.
Example C63_numbers_ex : sub_ok (R := Rb_cjr) Rminus /\ @definite Rb_cjr /\ sqrt_ok (R := Rb_cjr) sqrt.
Proof.
  split; [|split].
  - intros x y. split; intros H; [exact (Rminus_diag_uniq _ _ H)|exact (Rminus_diag_eq _ _ H)].
  - intros l. induction l as [|x l IH]; intros H z []; rewrite lsum_cons in H; change (x * x + lsum l sqabs = 0)%re in H;
      pose proof (real_sqabs_pos l) as P; pose proof (Rle_0_sqr x) as Q; unfold Rsqr in Q; change (car Rb_cjr) with R in *.
    + subst z. assert (x * x = 0)%re as Z by lra. apply Rmult_integral in Z. destruct Z; assumption.
    + apply IH; [|assumption]. change (@r0 Rb_cjr) with 0%re. lra.
  - intros l. apply sqrt_sqrt, real_sqabs_pos.
Qed.

Definition ex_id : Tensor.tensor Z_cjr := Tensor (R := Z_cjr) [1; 2; 2] (fun ix => match ix with [_; s; b] => if s =? b then 1%Z else 0%Z | _ => 0%Z end).
Definition ex_right : Tensor.tensor Z_cjr := Tensor (R := Z_cjr) [2; 2; 1] (fun ix => match ix with [a; s; _] => if a =? s then 2%Z else 0%Z | _ => 0%Z end).
Definition ex_conn : Tensor.tensor Z_cjr := Tensor (R := Z_cjr) [1; 1] (fun _ => 3%Z).
(** canonical about the last site, not about the first one: there the distance is the root of 3^2 + 3^2, with the
    connector matrix absorbed of 35^2 + 35^2 *)
Example C63_ex : chain (R := Z_cjr) 1 [ex_id; ex_right] 1 /\
  finite_check_canonical (R := Z_cjr) (fun l => l) Z.sub Z.sqrt (IMPS (MPS [ex_id; ex_right] (Some 1)) None) = Ok 0%Z /\
  finite_check_canonical (R := Z_cjr) (fun l => l) Z.sub Z.sqrt (IMPS (MPS [ex_id; ex_right] (Some 0)) None) = Ok 4%Z /\
  check_orthonormality (R := Z_cjr) (fun l => l) Z.sub (fun x => x) (IMPS (MPS [ex_id; ex_right] (Some 0)) (Some ex_conn)) DRight 1%Z = Ok 2450%Z.
Proof. split; [exists 2, 2; split; [reflexivity|]; exists 2, 1; split; reflexivity|]. split; [|split]; vm_compute; reflexivity. Qed.
