(** * GmresExamples: concrete systems for the examples and refutations of GMRES *)
From Coq Require Import QArith Qcanon ZArith.
From Verif Require Import Prelude Algebra Krylov KrylovFacts KrylovSpec KrylovInst KrylovExamples Gmres GmresSpec.
Set Implicit Arguments.
Unset Strict Implicit.
Open Scope nat_scope.

Section Rows.
  Variable K : cfd.
  Add Field Kf : (cfth K).
  Lemma tdot_add n (row : list K) (x y : tup K n) : tdot row (ta x y) = tdot row x +! tdot row y.
  Proof. revert row. induction n as [|n IH]; intros row; simpl; [ring|]. rewrite IH. ring. Qed.
  Lemma tdot_vs n (row : list K) a (x : tup K n) : tdot row (ts a x) = a *! tdot row x.
  Proof. revert row. induction n as [|n IH]; intros row; simpl; [ring|]. rewrite IH. ring. Qed.
  (** a matrix is a linear operator *)
  Lemma rows_linear n (f : mx K) : linear (V := tup_ips K n) (rows n f).
  Proof.
    assert (H1 : forall k (f : mx K) (x y : tup K n), rows k f (ta x y) = ta (rows k f x) (rows k f y)).
    { induction k as [|k IH]; intros g x y; simpl; [reflexivity|]. rewrite tdot_add, IH. reflexivity. }
    assert (H2 : forall k (f : mx K) a (x : tup K n), rows k f (ts a x) = ts a (rows k f x)).
    { induction k as [|k IH]; intros g a x; simpl; [reflexivity|]. rewrite tdot_vs, IH. reflexivity. }
    split; [intros x y; apply H1|intros a x; apply H2].
  Qed.
End Rows.

Definition W2 : ips Q_cfd := tup_ips Q_cfd 2.
Definition w2 (a b : Q_cfd) : W2 := (a, (b, tt)).
Definition m22 (a b c d : Q_cfd) : W2 -> W2 := rows 2 [[a; b]; [c; d]].
Definition e_1 : W2 := w2 (zq 1 1) (zq 0 1).
(** a regular matrix; the residual of the first restart with one Krylov vector is an eigenvector *)
Definition mA : W2 -> W2 := m22 (zq 4 1) (zq 9 4) (zq 3 1) (zq 13 4).
Definition milli : Q_cfd := zq 1 1000.
Definition res2 (A : W2 -> W2) (b x : W2) : Q := this (nsq (vsub b (A x))).
Definition xs2 (x : W2) : list Q := [this (fst x); this (fst (snd x))].
Lemma xs2_inj x y : xs2 x = xs2 y -> x = y.
Proof.
  destruct x as [a [b []]], y as [c [d []]]. unfold xs2. cbn [fst snd]. intros H. injection H as H1 H2.
  rewrite (Qc_is_canon a c), (Qc_is_canon b d); [reflexivity|rewrite H2; reflexivity|rewrite H1; reflexivity].
Qed.
