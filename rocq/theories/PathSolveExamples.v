(** * PathSolveExamples: a sorting function and matrices for examples *)
From Coq Require Import ZArith NArith QArith Qcanon Sorted Permutation.
From Verif Require Import Prelude Res Ncon PathSolve PathSolveSpec PathSolveKeep PathSolveNum PathSolveNcon PathSolveMain.
Set Implicit Arguments.
Unset Strict Implicit.
Open Scope nat_scope.

Definition arg_sort {L : lsf} (l : list L) : list nat := sort (fun a b => lle (nth a l l0) (nth b l l0)) (seq 0 (length l)).
Lemma arg_sort_ok {L : lsf} : sorts (@arg_sort L).
Proof.
  intros l. split; [apply Res.sort_perm|]. apply (@Res.sort_sorted nat (fun a b => lle (nth a l l0) (nth b l l0))).
  - intros x y. destruct (lle (nth x l l0) (nth y l l0)) eqn:E; [left; reflexivity | right; apply lle_tot, E].
  - intros x y z. apply lle_trans.
Qed.
(** matrices of dimensions *)
Definition qmat (m : list (list positive)) : list (list Q_lsf) := map (map qdim) m.
Definition qnat (d : nat) : Q_lsf := qdim (Pos.of_nat d).
Lemma qnat_pos d : (1 <= d)%nat -> lle l0 (qnat d) = true.
Proof.
  intros H. apply qle_spec. cbn. unfold Qcle. cbn [this Q2Qc]. rewrite !Qred_correct. unfold Qle. cbn. lia.
Qed.
Definition qval (a : Q_lsf) : Q := this (qv a).
(** symmetric, entries at least 1 *)
Definition qsym (m : list (list Q_lsf)) : bool :=
  forallb (fun x => forallb (fun y => qle (get m x y) (get m y x) && lle l0 (get m x y)) (seq 0 (length m))) (seq 0 (length m)).
Lemma qsym_ok m : qsym m = true -> (forall x y, x < length m -> y < length m -> get m x y = get m y x) /\ (forall x y, x < length m -> y < length m -> lle l0 (get m x y) = true).
Proof.
  intros H. assert (forall x y, x < length m -> y < length m -> qle (get m x y) (get m y x) = true /\ lle l0 (get m x y) = true) as Q.
  { intros x y Hx Hy. unfold qsym in H. rewrite forallb_forall in H. specialize (H x ltac:(apply in_seq; lia)). rewrite forallb_forall in H. specialize (H y ltac:(apply in_seq; lia)). apply andb_prop, H. }
  split; intros x y Hx Hy; [|apply Q; assumption]. apply lle_anti; apply Q; assumption.
Qed.
(** T[i,j,K], v[i], w[j] with i = j = 2, K = 100 *)
Definition outer_net : list (list Q_lsf) := qmat [[100; 2; 2]; [2; 1; 1]; [2; 1; 1]]%positive.
(** a ring of three matrices with an open leg *)
Definition ring_net : list (list Q_lsf) := qmat [[5; 2; 3]; [2; 1; 4]; [3; 4; 1]]%positive.
Definition shown (r : res (@answer Q_lsf)) : option (list (nat * nat) * Q * bool) :=
  match r with Ok a => Some (an_order a, qval (an_cost a), an_optimal a) | _ => None end.
