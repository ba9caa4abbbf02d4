(** * PathSolveKeep: sorting and removing equal networks loses nothing cheaper *)
From Coq Require Import Permutation NArith Sorted.
From Verif Require Import Prelude Res PathSolve PathSolveSpec PathSolveAdj.
Set Implicit Arguments.
Unset Strict Implicit.

(** the contract of [np.argsort] *)
Definition sorts {L : lsf} (argsort : list L -> list nat) : Prop :=
  forall l, Permutation (argsort l) (seq 0 (length l)) /\ StronglySorted (fun a b => lle (nth a l l0) (nth b l l0) = true) (argsort l).

Section Keep.
  Context {L : lsf}.
  Variable argsort : list L -> list nat.
  Hypothesis Hsort : sorts argsort.
  Notation cand := (@cand L).
  Implicit Types (l acc : list cand) (x y : cand).

  Lemma sort_map l d : sort_by_cost argsort l = map (fun k => nth k l d) (argsort (map ccost l)).
  Proof.
    unfold sort_by_cost. assert (forall k, In k (argsort (map ccost l)) -> k < length l) as H.
    { intros k Hk. destruct (Hsort (map ccost l)) as [P _]. apply (Permutation_in _ P) in Hk. apply in_seq in Hk. rewrite map_length in Hk. lia. }
    revert H. generalize (argsort (map ccost l)). intros ks. induction ks as [|k ks IH]; intros H; [reflexivity|]. cbn [flat_map map].
    rewrite (nth_error_nth' l d) by (apply H; left; reflexivity). cbn. f_equal. apply IH. intros k' Hk'. apply H. right. exact Hk'.
  Qed.
  Lemma map_nth_seq A (l : list A) d : map (fun k => nth k l d) (seq 0 (length l)) = l.
  Proof. induction l as [|x l IH]; [reflexivity|]. cbn [length seq map nth]. f_equal. rewrite <- seq_shift, map_map. exact IH. Qed.
  Lemma sort_perm l : Permutation (sort_by_cost argsort l) l.
  Proof.
    destruct l as [|x l]; [unfold sort_by_cost; destruct (Hsort []) as [P _]; cbn in *; apply Permutation_sym, Permutation_nil in P; rewrite P; constructor|].
    set (m := x :: l). rewrite (sort_map m x). destruct (Hsort (map ccost m)) as [P _]. rewrite map_length in P. rewrite (Permutation_map (fun k => nth k m x) P). rewrite map_nth_seq. reflexivity.
  Qed.
  Lemma sort_sorted l : StronglySorted (fun x y => lle (ccost x) (ccost y) = true) (sort_by_cost argsort l).
  Proof.
    destruct l as [|x0 l0']; [unfold sort_by_cost; destruct (Hsort []) as [P _]; cbn in *; apply Permutation_sym, Permutation_nil in P; rewrite P; constructor|].
    set (l := x0 :: l0'). rewrite (sort_map l x0). destruct (Hsort (map ccost l)) as [P S]. rewrite map_length in P.
    assert (forall k, In k (argsort (map ccost l)) -> k < length l) as H by (intros k Hk; apply (Permutation_in _ P) in Hk; apply in_seq in Hk; lia).
    assert (forall k, k < length l -> nth k (map ccost l) l0 = ccost (nth k l x0)) as E by (intros k Hk; rewrite nth_indep with (d' := ccost x0) by (rewrite map_length; exact Hk); apply map_nth).
    revert H S. generalize (argsort (map ccost l)). intros ks H S. induction S as [|k ks S IH F]; [constructor|]. cbn [map]. constructor; [apply IH; intros k' Hk'; apply H; right; exact Hk'|].
    rewrite Forall_forall in *. intros y Hy. apply in_map_iff in Hy as (k' & <- & Hk'). specialize (F k' Hk'). rewrite !E in F; [exact F | apply H; right; exact Hk' | apply H; left; reflexivity].
  Qed.

  (** ** the lexicographic order *)
  Lemma lexc_eq a : forall b, lexc a b = Eq -> a = b.
  Proof.
    induction a as [|x a IH]; intros [|y b]; cbn; try discriminate; [reflexivity|]. destruct (N.compare x y) eqn:E; try discriminate. intros H. apply N.compare_eq in E. subst. f_equal. apply IH, H.
  Qed.
  Lemma lexc_refl a : lexc a a = Eq.
  Proof. induction a as [|x a IH]; [reflexivity|]. cbn. rewrite N.compare_refl. exact IH. Qed.
  Lemma lexc_gt a : forall b, lexc a b = Gt -> lexc b a = Lt.
  Proof.
    induction a as [|x a IH]; intros [|y b]; cbn; try discriminate; [reflexivity|]. rewrite (N.compare_antisym y x). destruct (N.compare y x) eqn:E; cbn; try discriminate; auto.
  Qed.
  Lemma lexc_trans a : forall b c, lexc a b = Lt -> lexc b c = Lt -> lexc a c = Lt.
  Proof.
    induction a as [|x a IH]; intros [|y b] [|z c]; cbn; try discriminate; try reflexivity.
    destruct (N.compare x y) eqn:E; destruct (N.compare y z) eqn:F; try discriminate.
    - apply N.compare_eq in E. apply N.compare_eq in F. subst. rewrite N.compare_refl. apply IH.
    - apply N.compare_eq in E. subst. rewrite F. reflexivity.
    - apply N.compare_eq in F. subst. rewrite E. reflexivity.
    - intros _ _. rewrite N.compare_lt_iff in *. rewrite (proj2 (N.compare_lt_iff x z)) by (eapply N.lt_trans; eassumption). reflexivity.
  Qed.
  Notation lsorted := (StronglySorted (fun x y => lexc (ckey x) (ckey y) = Lt)).
  Lemma put_in x l z : In z (put_unique x l) -> z = x \/ In z l.
  Proof.
    induction l as [|y l IH]; cbn; [intros [->|[]]; auto|]. destruct (lexc (ckey x) (ckey y)); cbn; [tauto | intros [->|H]; auto | intros [->|H]; [auto | destruct (IH H); auto]].
  Qed.
  Lemma put_keeps x l z : In z l -> In z (put_unique x l).
  Proof. induction l as [|y l IH]; [intros []|]. cbn. destruct (lexc (ckey x) (ckey y)); cbn; [tauto | tauto | intros [->|H]; [auto | right; apply IH, H]]. Qed.
  Lemma put_found x l : lsorted l -> exists y, In y (put_unique x l) /\ ckey y = ckey x /\ (y = x \/ In y l).
  Proof.
    induction 1 as [|y l S IH F]; cbn; [exists x; auto|]. destruct (lexc (ckey x) (ckey y)) eqn:E.
    - exists y. split; [left; reflexivity|]. apply lexc_eq in E. auto.
    - exists x. cbn. auto.
    - destruct IH as (z & Hz & K & Q). exists z. split; [right; exact Hz|]. split; [exact K|]. destruct Q; cbn; auto.
  Qed.
  Lemma put_sorted x l : lsorted l -> lsorted (put_unique x l).
  Proof.
    induction 1 as [|y l S IH F]; cbn; [constructor; constructor|]. rewrite Forall_forall in F. destruct (lexc (ckey x) (ckey y)) eqn:E.
    - constructor; [exact S | rewrite Forall_forall; exact F].
    - constructor; [constructor; [exact S | rewrite Forall_forall; exact F]|]. rewrite Forall_forall. intros z [<-|Hz]; [exact E | eapply lexc_trans; [exact E | apply F, Hz]].
    - constructor; [exact IH|]. rewrite Forall_forall. intros z Hz. apply put_in in Hz as [->|Hz]; [apply lexc_gt, E | apply F, Hz].
  Qed.
  Lemma fold_unique l : forall acc, lsorted acc -> StronglySorted (fun x y => lle (ccost x) (ccost y) = true) l ->
    (forall x y, In x acc -> In y l -> lle (ccost x) (ccost y) = true) ->
    let r := fold_left (fun acc x => put_unique x acc) l acc in
    lsorted r /\ (forall z, In z r -> In z acc \/ In z l) /\
    forall z, In z acc \/ In z l -> exists y, In y r /\ ckey y = ckey z /\ lle (ccost y) (ccost z) = true.
  Proof.
    induction l as [|x l IH]; intros acc Sa Sl Ha; cbn [fold_left].
    - split; [exact Sa|]. split; [auto|]. intros z [Hz|[]]. exists z. split; [exact Hz|]. split; [reflexivity | apply lle_refl].
    - inversion Sl as [|? ? Sl' F]; subst. rewrite Forall_forall in F. destruct (IH (put_unique x acc)) as (H1 & H2 & H3).
      + apply put_sorted, Sa.
      + exact Sl'.
      + intros u v Hu Hv. apply put_in in Hu as [->|Hu]; [apply F, Hv | apply Ha; [exact Hu | right; exact Hv]].
      + split; [exact H1|]. split.
        * intros z Hz. destruct (H2 z Hz) as [Q|Q]; [|right; right; exact Q]. apply put_in in Q as [->|Q]; [right; left; reflexivity | left; exact Q].
        * intros z [Hz|[<-|Hz]].
          -- apply H3. left. apply put_keeps, Hz.
          -- destruct (put_found x Sa) as (y & Hy & K & Q). destruct (H3 y (or_introl Hy)) as (y' & Hy' & K' & C). exists y'. split; [exact Hy'|]. split; [congruence|].
             eapply lle_trans; [exact C|]. destruct Q as [->|Q]; [apply lle_refl | apply Ha; [exact Q | left; reflexivity]].
          -- apply H3. right. exact Hz.
  Qed.
  Lemma lsorted_nodup l : lsorted l -> NoDup (map ckey l).
  Proof.
    induction 1 as [|x l S IH F]; [constructor|]. cbn. constructor; [|exact IH]. intros I. apply in_map_iff in I as (y & E & Hy). rewrite Forall_forall in F. specialize (F y Hy). rewrite E, lexc_refl in F. discriminate.
  Qed.

  Definition covers (l' l : list cand) : Prop := forall z, In z l -> exists y, In y l' /\ ckey y = ckey z /\ lle (ccost y) (ccost z) = true.
  Lemma covers_trans l1 l2 l3 : covers l1 l2 -> covers l2 l3 -> covers l1 l3.
  Proof.
    intros H1 H2 z Hz. destruct (H2 z Hz) as (y & Hy & K & C). destruct (H1 y Hy) as (y' & Hy' & K' & C'). exists y'. split; [exact Hy'|]. split; [congruence | eapply lle_trans; eassumption].
  Qed.
  Lemma covers_refl l1 l2 : incl l2 l1 -> covers l1 l2.
  Proof. intros H z Hz. exists z. split; [apply H, Hz|]. split; [reflexivity | apply lle_refl]. Qed.
  Lemma dedupe_spec l : incl (dedupe argsort l) l /\ covers (dedupe argsort l) l /\ NoDup (map ckey (dedupe argsort l)).
  Proof.
    unfold dedupe, unique. destruct (@fold_unique (sort_by_cost argsort l) []) as (H1 & H2 & H3); [constructor | apply sort_sorted | intros ? ? []|]. pose proof (sort_perm l) as P. split; [|split].
    - intros z Hz. destruct (H2 z Hz) as [[]|Q]. apply (Permutation_in _ P), Q.
    - intros z Hz. apply H3. right. apply (Permutation_in _ (Permutation_sym P)), Hz.
    - apply lsorted_nodup, H1.
  Qed.
  Lemma firstn_all_len A (l : list A) k : length l <= length (firstn k l) -> firstn k l = l.
  Proof. intros H. rewrite firstn_length in H. apply firstn_all2. lia. Qed.
  Lemma filter_length_le A (f : A -> bool) (l : list A) : length (filter f l) <= length l.
  Proof. induction l as [|x l IH]; [reflexivity|]. cbn. destruct (f x); cbn; lia. Qed.
  Lemma filter_all_len A (f : A -> bool) (l : list A) : length l <= length (filter f l) -> filter f l = l.
  Proof.
    induction l as [|x l IH]; [reflexivity|]. cbn. destruct (f x); cbn; intros H; [f_equal; apply IH; lia|]. pose proof (filter_length_le f l). lia.
  Qed.
  Lemma reduce_spec l mb : incl (fst (reduce_nets argsort l mb)) l /\ (snd (reduce_nets argsort l mb) = 0 -> covers (fst (reduce_nets argsort l mb)) l) /\
    (mb = None -> snd (reduce_nets argsort l mb) = 0 /\ NoDup (map ckey (fst (reduce_nets argsort l mb)))).
  Proof.
    destruct (dedupe_spec l) as (D1 & D2 & D3). unfold reduce_nets. destruct mb as [m|]; [|cbn; auto].
    destruct (m <? length (dedupe argsort l)); [|cbn; split; [exact D1|]; split; [auto | discriminate]].
    cbn [fst snd]. set (K := dedupe argsort l) in *. set (S := sort_by_cost argsort K). assert (Permutation S K) as P by apply sort_perm. set (a := num_cheapest m). set (F := filter snd (skipn a S)). set (b := num_stable m).
    assert (incl (firstn a S ++ firstn b F) S) as I.
    { intros z Hz. apply in_app_or in Hz as [Hz|Hz]; [rewrite <- (firstn_skipn a S); apply in_or_app; left; exact Hz|].
      assert (In z F) as HF by (rewrite <- (firstn_skipn b F); apply in_or_app; left; exact Hz). apply filter_In in HF as [HF _]. rewrite <- (firstn_skipn a S). apply in_or_app. right. exact HF. }
    split; [intros z Hz; apply D1, (Permutation_in _ P), I, Hz|]. split; [|discriminate]. intros Q.
    apply (@covers_trans _ K); [|exact D2]. apply covers_refl. intros z Hz. apply (Permutation_in _ (Permutation_sym P)) in Hz.
    replace (firstn a S ++ firstn b F) with S; [exact Hz|]. rewrite <- (firstn_skipn a S) at 1. f_equal.
    rewrite app_length in Q. pose proof (Permutation_length P) as LP. assert (length S = length (firstn a S) + length (skipn a S)) as LS by (rewrite <- app_length, firstn_skipn; reflexivity).
    assert (length (firstn b F) <= length F) as B1 by (rewrite firstn_length; lia). assert (length F <= length (skipn a S)) as B2 by apply filter_length_le.
    assert (length F <= length (firstn b F)) as B3 by (unfold PathSolve.cand in *; lia). rewrite (@firstn_all_len _ F b B3). symmetry. apply filter_all_len. fold F. unfold PathSolve.cand in *. lia.
  Qed.
End Keep.
