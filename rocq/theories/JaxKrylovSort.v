(** * JaxKrylovSort: the sorting functions *)
From Coq Require Import Field Permutation Sorted.
From Verif Require Import Prelude Algebra Krylov KrylovFacts KrylovSpec Gmres JaxKrylov JaxKrylovSpec.
Set Implicit Arguments.
Unset Strict Implicit.

Section Sort.
  Context {K : cfd}.
  Add Field Kf : (cfth K).
  Variable key : nat -> K.
  Definition kle (i j : nat) : Prop := cpos (key j -! key i).

  Lemma insert_perm i l : Permutation (i :: l) (insert_ix key i l).
  Proof.
    induction l as [|j l IH]; cbn [insert_ix]; [apply Permutation_refl|].
    destruct (clt (key i) (key j)); [apply Permutation_refl|].
    eapply perm_trans; [apply perm_swap|]. apply perm_skip. exact IH.
  Qed.
  Lemma fold_insert_perm l : forall acc, Permutation (l ++ acc) (fold_left (fun l i => insert_ix key i l) l acc).
  Proof.
    induction l as [|i l IH]; intros acc; cbn [fold_left app]; [apply Permutation_refl|].
    eapply perm_trans; [|apply IH]. eapply perm_trans; [apply Permutation_middle|]. apply Permutation_app_head. apply insert_perm.
  Qed.
  Lemma argsort_perm n : Permutation (seq 0 n) (argsort key n).
  Proof. unfold argsort. pose proof (fold_insert_perm (seq 0 n) []) as H. rewrite app_nil_r in H. exact H. Qed.

  Definition realk (i : nat) : Prop := cj (key i) = key i.
  Lemma nlt_kle i j : realk i -> realk j -> clt (key i) (key j) = false -> kle j i.
  Proof.
    intros Ri Rj C. unfold kle. destruct (@cpos_total K (key i -! key j)) as [P|P]; [rewrite cj_add, cj_op, Ri, Rj; reflexivity|exact P|].
    destruct (cdec (key i) (key j)) as [E|E].
    - rewrite E. replace (key j -! key j) with (r0 : K) by ring. apply cpos_0.
    - exfalso. assert (clt (key i) (key j) = true); [|congruence]. apply clt_ok. split; [|exact E].
      replace (key j +! cop (key i)) with (cop (key i -! key j)) by ring. exact P.
  Qed.
  Lemma kle_trans i j l : kle i j -> kle j l -> kle i l.
  Proof. unfold kle. intros P Q. replace (key l -! key i) with ((key l -! key j) +! (key j -! key i)) by ring. apply cpos_add; assumption. Qed.
  Lemma insert_sorted i l : Forall realk l -> realk i -> StronglySorted kle l -> StronglySorted kle (insert_ix key i l).
  Proof.
    intros Rl Ri S. induction S as [|j l S IH F]; cbn [insert_ix]; [repeat constructor|].
    inversion Rl as [|? ? Rj Rl' E1]; subst. destruct (clt (key i) (key j)) eqn:C.
    - apply clt_ok in C. destruct C as [C _]. constructor; [constructor; assumption|]. constructor; [exact C|].
      eapply Forall_impl; [|exact F]. intros a Ha. eapply kle_trans; [exact C|exact Ha].
    - constructor; [apply IH; exact Rl'|]. eapply Permutation_Forall; [apply insert_perm|]. constructor; [|exact F].
      apply nlt_kle; assumption.
  Qed.
  Lemma fold_sorted l : forall acc, Forall realk l -> Forall realk acc -> StronglySorted kle acc ->
    StronglySorted kle (fold_left (fun l i => insert_ix key i l) l acc).
  Proof.
    induction l as [|i l IH]; intros acc Rl Ra S; cbn [fold_left]; [exact S|]. inversion Rl; subst. apply IH; [assumption| |].
    - eapply Permutation_Forall; [apply insert_perm|]. constructor; assumption.
    - apply insert_sorted; assumption.
  Qed.
  Lemma argsort_sorted n : (forall i, i < n -> realk i) -> StronglySorted kle (argsort key n).
  Proof.
    intros R. apply fold_sorted; [|constructor|constructor]. apply Forall_forall. intros i Hi. apply in_seq in Hi. apply R. lia.
  Qed.
End Sort.

Lemma sorted_nth T (R : T -> T -> Prop) l d : StronglySorted R l -> forall i j, i < j -> j < length l -> R (nth i l d) (nth j l d).
Proof.
  induction 1 as [|a l S IH F]; intros i j Hij Hj; [simpl in Hj; lia|]. destruct j as [|j]; [lia|]. simpl in Hj. destruct i as [|i].
  - simpl. rewrite Forall_forall in F. apply F. apply nth_In. lia.
  - simpl. apply IH; lia.
Qed.

Section Inds.
  Context {K : cfd}.
  Add Field Kf2 : (cfth K).
  Lemma sort_inds_perm w (ev : list K) : Permutation (seq 0 (length ev)) (sort_inds w ev).
  Proof.
    pose proof (argsort_perm (fun i => sort_key w (nth i ev r0)) (length ev)) as P. unfold sort_inds.
    destruct w; [| | |exact P]; (eapply perm_trans; [exact P|apply Permutation_rev]).
  Qed.
  Lemma sort_inds_length w (ev : list K) : length (sort_inds w ev) = length ev.
  Proof. rewrite <- (Permutation_length (sort_inds_perm w ev)), seq_length. reflexivity. Qed.
  Lemma sort_inds_nodup w (ev : list K) : NoDup (sort_inds w ev).
  Proof. eapply Permutation_NoDup; [apply sort_inds_perm|apply seq_NoDup]. Qed.
  Lemma sort_inds_lt w (ev : list K) i : In i (sort_inds w ev) -> i < length ev.
  Proof. intros H. eapply Permutation_in in H; [|apply Permutation_sym, sort_inds_perm]. apply in_seq in H. lia. Qed.
  Lemma key_real w (ev : list K) i : sortable w ev -> i < length ev -> cj (sort_key w (nth i ev r0)) = sort_key w (nth i ev r0).
  Proof.
    intros S Hi. destruct w; cbn [sort_key sortable] in *.
    - rewrite cj_add, cj_inv. ring.
    - rewrite cj_mul, cj_inv. ring.
    - apply S, nth_In, Hi.
    - apply S, nth_In, Hi.
  Qed.
  Lemma sort_inds_sorted w (ev : list K) i j : sortable w ev -> i < j -> j < length ev ->
    before w (nth (nth i (sort_inds w ev) 0) ev r0) (nth (nth j (sort_inds w ev) 0) ev r0).
  Proof.
    intros S Hij Hj. set (key := fun i => sort_key w (nth i ev r0)).
    assert (St : StronglySorted (kle key) (argsort key (length ev))) by (apply argsort_sorted; intros a Ha; apply key_real; assumption).
    assert (L : length (argsort key (length ev)) = length ev) by (rewrite <- (Permutation_length (argsort_perm key (length ev))), seq_length; reflexivity).
    pose proof (@sorted_nth _ _ _ 0 St) as P.
    destruct w; unfold sort_inds; fold key; cbn [before].
    1-3: rewrite !rev_nth by (rewrite L; lia); rewrite L; pose proof (P (length ev - Datatypes.S j) (length ev - Datatypes.S i) ltac:(lia) ltac:(lia)) as Q; exact Q.
    exact (P i j Hij ltac:(lia)).
  Qed.
  Lemma sort_shifts_length w p (ev : list K) : p <= length ev -> 0 < p -> length (sort_shifts w p ev) = p.
  Proof.
    intros Hp H0. unfold sort_shifts, last_p. destruct (Nat.eqb_spec p 0); [lia|].
    rewrite skipn_length, map_length, sort_inds_length. lia.
  Qed.
End Inds.
