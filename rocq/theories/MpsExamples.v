(** * MpsExamples: rational matrix product states with factorisations that meet the contracts *)
From Coq Require Import List ZArith Lia QArith Qcanon.
From Verif Require Import Prelude Res Algebra Tensor TensorFacts ListFacts Ncon BlockSparse Backends DecompFacts Mps MpsSpec.
Import ListNotations.
Set Implicit Arguments.
Unset Strict Implicit.
Local Open Scope nat_scope.

Definition Qcjr_base : csr.
Proof. refine (@CSR Qc 0%Qc 1%Qc Qcplus Qcmult _). constructor; intros; ring. Defined.
Definition Q_cjr : cjr.
Proof. refine (@CJR Qcjr_base (fun x => x) _ _ _ _ _); reflexivity. Defined.
Definition qn (n : Z) : Q_cjr := Q2Qc (n # 1).
Definition qd (n : Z) (d : positive) : Q_cjr := Q2Qc (n # d).

Definition qeqb (x y : Q_cjr) : bool := if Qc_eq_dec x y then true else false.
Lemma qeqb_eq x y : qeqb x y = true -> x = y.
Proof. unfold qeqb. destruct (Qc_eq_dec x y); [auto | discriminate]. Qed.

(** a tensor from its entries in row major order *)
Definition qt (sh : list nat) (l : list Q_cjr) : tensor Q_cjr := Tensor sh (fun ix => nth (ravel sh ix) l r0).

Definition colsb (u : tensor Q_cjr) (m k : nat) : bool :=
  forallb (fun l => forallb (fun l' => qeqb (nsum m (fun i => (elt u [i; l] *! elt u [i; l'])%R)) (if l =? l' then r1 else r0)) (seq 0 k)) (seq 0 k).
Definition rowsb (v : tensor Q_cjr) (k n : nat) : bool :=
  forallb (fun l => forallb (fun l' => qeqb (nsum n (fun j => (elt v [l; j] *! elt v [l'; j])%R)) (if l =? l' then r1 else r0)) (seq 0 k)) (seq 0 k).
Lemma colsb_ok u m k : colsb u m k = true -> orthonormal_cols u m k.
Proof.
  unfold colsb. rewrite forallb_forall. intros H l l' Hl Hl'. specialize (H l). rewrite in_seq, forallb_forall in H.
  apply qeqb_eq. apply (H ltac:(lia) l'). apply in_seq. lia.
Qed.
Lemma rowsb_ok v k n : rowsb v k n = true -> orthonormal_rows v k n.
Proof.
  unfold rowsb. rewrite forallb_forall. intros H l l' Hl Hl'. specialize (H l). rewrite in_seq, forallb_forall in H.
  apply qeqb_eq. apply (H ltac:(lia) l'). apply in_seq. lia.
Qed.

(** wide matrices: the identity times the matrix; isometries: the matrix times the identity *)
Definition qrx (m : tensor Q_cjr) : res (tensor Q_cjr * tensor Q_cjr) :=
  if rows m <=? cols m then Ok (eye (rows m), m) else if colsb m (rows m) (cols m) then Ok (m, eye (cols m)) else Raise.
(** matrices with orthonormal rows *)
Definition svdx (m : tensor Q_cjr) : res (tensor Q_cjr * list Q_cjr * tensor Q_cjr) :=
  if (rows m <=? cols m) && rowsb m (rows m) (cols m) then Ok (eye (rows m), repeat r1 (rows m), m) else Raise.

Lemma eye_sum_l n i (f : nat -> Q_cjr) : i < n -> nsum n (fun l => (elt (eye n) [i; l] *! f l)%R) = f i.
Proof.
  intros Hi. rewrite (@nsum_single Q_cjr n _ i); [cbn; rewrite Nat.eqb_refl; apply Qcmult_1_l | exact Hi |].
  intros j Hj Ne. cbn. rewrite (proj2 (Nat.eqb_neq i j)) by auto. apply Qcmult_0_l.
Qed.
Lemma eye_sum_r n i (f : nat -> Q_cjr) : i < n -> nsum n (fun l => (f l *! elt (eye n) [l; i])%R) = f i.
Proof.
  intros Hi. rewrite (@nsum_single Q_cjr n _ i); [cbn; rewrite Nat.eqb_refl; apply Qcmult_1_r | exact Hi |].
  intros j Hj Ne. cbn. rewrite (proj2 (Nat.eqb_neq j i)) by auto. apply Qcmult_0_r.
Qed.
Lemma eye_cols n : orthonormal_cols (R := Q_cjr) (eye n) n n.
Proof.
  intros l l' Hl Hl'.
  transitivity (nsum n (fun i => (elt (@eye Q_cjr n) [i; l'] *! elt (@eye Q_cjr n) [i; l])%R)).
  { apply nsum_ext. intros i Hi. apply Qcmult_comm. }
  rewrite (eye_sum_r (fun i => elt (@eye Q_cjr n) [i; l']) Hl). reflexivity.
Qed.
Lemma shape2 (m : tensor Q_cjr) : length (shape m) = 2 -> shape m = [rows m; cols m].
Proof. unfold rows, cols. destruct (shape m) as [|x [|y [|z l]]]; try discriminate. reflexivity. Qed.

Lemma qrx_ok : qr_ok qrx.
Proof.
  intros m q r S H. unfold qrx in H. apply shape2 in S. destruct (rows m <=? cols m) eqn:E.
  - apply Nat.leb_le in E. injection H as <- <-. rewrite Nat.min_l by exact E. split; [|apply eye_cols].
    split; [cbn; rewrite Nat.min_l by exact E; reflexivity|]. split; [rewrite Nat.min_l by exact E; exact S|].
    intros i j Hi Hj. rewrite Nat.min_l by exact E. exact (eye_sum_l (fun l => elt m [l; j]) Hi).
  - apply Nat.leb_gt in E. destruct (colsb m (rows m) (cols m)) eqn:G; [|discriminate]. injection H as <- <-. rewrite Nat.min_r by lia.
    split; [|apply colsb_ok; exact G]. unfold is_qr. rewrite Nat.min_r by lia.
    split; [exact S|]. split; [reflexivity|]. intros i j Hi Hj. exact (eye_sum_r (fun l => elt m [i; l]) Hj).
Qed.
Lemma svdx_ok : svd_ok svdx.
Proof.
  intros m u s v S H. unfold svdx in H. apply shape2 in S. destruct (rows m <=? cols m) eqn:E; [|discriminate]. apply Nat.leb_le in E.
  destruct (rowsb m (rows m) (cols m)) eqn:G; [|discriminate]. cbn in H. injection H as <- <- <-. rewrite repeat_length.
  split; [|split; [apply eye_cols | apply rowsb_ok; exact G]]. unfold is_svd. rewrite repeat_length, Nat.min_l by exact E.
  split; [reflexivity|]. split; [reflexivity|]. split; [exact S|]. intros i j Hi Hj.
  rewrite <- (eye_sum_l (fun l => elt m [l; j]) Hi). apply nsum_ext. intros l Hl.
  assert (@nth Qc l (repeat 1%Qc (rows m)) 0%Qc = 1%Qc) as X.
  { transitivity (@nth Qc l (repeat 1%Qc (rows m)) 1%Qc); [apply nth_indep; rewrite repeat_length; exact Hl | apply nth_repeat]. }
  change (Qcmult (Qcmult (elt (@eye Q_cjr (rows m)) [i; l]) (@nth Qc l (repeat 1%Qc (rows m)) 0%Qc)) (elt m [l; j]) =
          Qcmult (elt (@eye Q_cjr (rows m)) [i; l]) (elt m [l; j])).
  rewrite X, Qcmult_1_r. reflexivity.
Qed.

(** two for every tensor that is not zero *)
Definition nrmx (t : tensor Q_cjr) : Q_cjr := if forallb (fun ix => qeqb (elt t ix) r0) (idxs (shape t)) then r0 else qn 2.
Definition divx (x z : Q_cjr) : Q_cjr := Qcdiv x z.
Lemma nrmx_ok : norm_ok nrmx.
Proof.
  intros t H ix V. unfold nrmx in H. destruct (forallb (fun ix => qeqb (elt t ix) r0) (idxs (shape t))) eqn:E.
  - rewrite forallb_forall in E. apply qeqb_eq. apply E. apply In_idxs. exact V.
  - discriminate H.
Qed.
Lemma divx_ok : div_ok divx.
Proof. intros x z Hz. exact (Qcmult_div_r x z Hz). Qed.

Definition keepx (relative : bool) (D : option nat) (err : option nat) (s : list Q_cjr) : nat :=
  match D with Some d => Nat.min d (length s) | None => length s end.
Definition err1 (e : nat) : bool := 1 <=? e.
Definition err0 (e : nat) : bool := e =? 0.
Definition amps (ts : list (tensor Q_cjr)) (l r : nat) : list Q :=
  flat_map (fun a => flat_map (fun sg => map (fun b => this (amp ts a sg b)) (seq 0 r)) (idxs (phys ts))) (seq 0 l).
