(** * SymTraceDense: the trace of the dense tensor, and orders in which the legs are paired rightly *)
From Coq Require Import Permutation List Lia Arith Sorting.Sorted.
From Verif Require Import Prelude Algebra Tensor TensorFacts Res Charge ChargeFacts BlockSparse BlockSpec BstSpec ListFacts BlockFacts BlockMaps BstFacts BstConv BstDot BstTensordot BstOps SymLinalg SymLinalgSpec SymTrace SymTraceLoop SymTraceMain.
Import ListNotations.
Set Implicit Arguments.
Unset Strict Implicit.

Section Dense.
  Context {G : chg} {K : csr}.
  Add Ring KringE : (rsr K).
  Variables lim blim junk : nat.
  Hypothesis lim_pos : 0 < lim.
  Variable emp : K.
  Notation bst := (bst G K).

  Lemma dense_trace (t : bst) x y : wf_bst t -> x < ndim t -> y < ndim t -> axes_match t x y ->
    let gs := map (gather 0 (edims t)) (gather [] (bord t) (free_axes (ndim t) [x; y])) in
    shape (trace2 (dense_of t) x y) = map nprod gs /\ concat gs = map (dim t) (other_legs t x y) /\
    forall I, valid I (map nprod gs) -> elt (trace2 (dense_of t) x y) I =
      lsum (idxs (map (dim t) (axis_order t x))) (fun vs => entry (elegs t) (bdata t)
        (unperm 0 (other_legs t x y ++ axis_order t x ++ axis_order t y) (split_index gs I ++ vs ++ vs))).
  Proof.
    clear lim_pos. intros W Hx Hy HM gs. set (F := free_axes (ndim t) [x; y]) in *.
    assert (rank (dense_of t) = ndim t) as Rt by (unfold rank; rewrite <- (wf_shape W); apply map_length).
    assert (is_perm (ndim t) (F ++ [x; y])) as Q.
    { apply free_axes_perm; [constructor; [intros [E|[]]; apply (tr_ne W Hx HM); symmetry; exact E | constructor; [intros [] | constructor]]|]. intros k [<-|[<-|[]]]; assumption. }
    assert (forall i, In i F -> i < ndim t) as RF by (intros i Hi; apply (is_perm_In i Q), in_or_app; left; exact Hi).
    assert (map (dim t) (axis_order t x) = gather 0 (edims t) (axis_order t x)) as D0 by reflexivity.
    assert (map (dim t) (axis_order t y) = map (dim t) (axis_order t x)) as D1.
    { apply (nth_ext _ _ 0 0); [rewrite !map_length; symmetry; apply (tr_len HM)|]. intros k Hk. rewrite map_length in Hk. pose proof (tr_len HM) as TL.
      rewrite (@nth_map_lt _ _ (dim t) (axis_order t y) k 0 0) by exact Hk. rewrite (@nth_map_lt _ _ (dim t) (axis_order t x) k 0 0) by lia.
      apply (tr_dim HM). rewrite <- (combine_nth _ _ k 0 0) by exact TL. apply nth_In. rewrite combine_length, TL, Nat.min_id. exact Hk. }
    assert (shape (trace2 (dense_of t) x y) = map nprod gs) as ES.
    { cbn [trace2 shape]. rewrite Rt. fold F. rewrite <- (wf_shape W). unfold gs, bshape. rewrite map_map. symmetry. apply (@map_gather _ _ (fun o => nprod (gather 0 (edims t) o)) [] (bord t) F 0 RF). }
    split; [exact ES|]. split; [unfold gs, other_legs; fold F; rewrite <- gather_concat; reflexivity|].
    intros I HI. pose proof (valid_length HI) as LI. unfold gs in LI. rewrite !map_length in LI. unfold gather in LI. rewrite map_length in LI.
    cbn [trace2 elt]. rewrite Rt. fold F.
    assert (nth x (shape (dense_of t)) 0 = nprod (map (dim t) (axis_order t x))) as ->.
    { rewrite <- (wf_shape W), D0. unfold bshape, axis_order. apply (@nth_map_lt _ _ (fun o => nprod (gather 0 (edims t) o)) (bord t) x 0 []). exact Hx. }
    rewrite <- nsum_unravel. apply nsum_ext. intros v Hv. rewrite dense_elt. f_equal. rewrite (wf_dims W).
    rewrite <- (@split_unperm_gather (bord t) (map (gather 0 (edims t)) (bord t)) (F ++ [x; y]) (I ++ [v; v]) (length (bcs t)) Q (wf_perm W)).
    - f_equal; [rewrite gather_app, concat_app; cbn [gather map concat]; rewrite app_nil_r; reflexivity|].
      assert (gather [] (map (gather 0 (edims t)) (bord t)) (F ++ [x; y]) = gs ++ [map (dim t) (axis_order t x); map (dim t) (axis_order t x)]) as ->.
      { rewrite gather_app. f_equal.
        - unfold gs. symmetry. apply (@map_gather _ _ (gather 0 (edims t)) [] (bord t) F [] RF).
        - cbn [gather map]. rewrite (@nth_map_lt _ _ (gather 0 (edims t)) (bord t) x [] []) by exact Hx. rewrite (@nth_map_lt _ _ (gather 0 (edims t)) (bord t) y [] []) by exact Hy.
          rewrite <- D1 at 2. reflexivity. }
      rewrite split_index_app by (unfold gs; rewrite map_length; unfold gather; rewrite map_length; exact LI). cbn [split_index]. rewrite app_nil_r. reflexivity.
    - rewrite map_map. apply map_ext. intros o. apply gather_length.
    - rewrite app_length, LI. cbn [length]. pose proof (is_perm_length Q) as LQ. rewrite app_length in LQ. exact LQ.
  Qed.

  (** *** the theorem *)
  Theorem trace_sound (t u : bst) x y : wf_bst t -> lin_trace lim blim junk emp t x y = Ok u -> paired (axis_order t x) (axis_order t y) ->
    wf_bst u /\ bcs u = gather (Raw []) (bcs t) (other_legs t x y) /\ bfs u = gather false (bfs t) (other_legs t x y) /\
    bord u = map (fun p => [p]) (seq 0 (length (other_legs t x y))) /\
    teq (dense_of u) (reshape (trace2 (dense_of t) x y) (gather 0 (edims t) (other_legs t x y))).
  Proof.
    intros W H HP. unfold lin_trace in H. destruct (ndim t <? 2); [discriminate|].
    destruct (_ || _) eqn:R in H; [discriminate|]. apply orb_false_iff in R. destruct R as [Rx Ry]. apply Nat.leb_gt in Rx, Ry.
    fold (axis_order t x) in H. fold (axis_order t y) in H.
    destruct (leqb Bool.bool_dec _ _) eqn:M1 in H; [|discriminate]. destruct (index_eq _ _) eqn:M2 in H; [|discriminate]. cbn [negb] in H. apply leqb_true in M1.
    assert (axes_match t x y) as HM by (split; assumption).
    destruct (breshape t _) as [out| |] eqn:Eout; try discriminate. cbn [rbind] in H.
    destruct (@trace_pairs G K lim blim junk lim_pos emp t x y W Rx Ry HM out Eout HP) as (u' & Eu & Wu & Cu & Fu & Ou & Su & Vu).
    rewrite Eu in H. injection H as ->. split; [exact Wu|]. split; [exact Cu|]. split; [exact Fu|]. split; [exact Ou|].
    pose proof (dense_trace W Rx Ry HM) as DT. cbv zeta in DT. destruct DT as (D1 & D2 & D3).
    set (gs := map (gather 0 (edims t)) (gather [] (bord t) (free_axes (ndim t) [x; y]))) in *.
    change (gather 0 (edims t) (other_legs t x y)) with (map (dim t) (other_legs t x y)).
    split; [rewrite Su; reflexivity|]. intros J HJ. rewrite Su in HJ. rewrite (Vu J HJ). cbn [reshape elt]. rewrite D1. rewrite <- D2 in HJ |- *.
    assert (nprod (concat gs) = nprod (map nprod gs)) as EN by apply nprod_concat.
    pose proof (ravel_lt HJ) as RJ. rewrite EN in RJ. set (I := unravel (map nprod gs) (ravel (concat gs) J)).
    assert (valid I (map nprod gs)) as VI by (apply unravel_valid, RJ). rewrite (D3 I VI).
    assert (split_index gs I = J) as ->; [|reflexivity].
    rewrite <- (unravel_split_index VI). unfold I. rewrite ravel_unravel by exact RJ. apply unravel_ravel, HJ.
  Qed.

  Theorem trace_total (t : bst) x y : wf_bst t -> 2 <= ndim t -> x < ndim t -> y < ndim t -> axes_match t x y -> paired (axis_order t x) (axis_order t y) ->
    (forall d, In d (edims t) -> 0 < d) -> exists u, lin_trace lim blim junk emp t x y = Ok u.
  Proof.
    intros W H2 Hx Hy HM HP Hpos. unfold lin_trace. rewrite (proj2 (Nat.ltb_ge _ _)) by lia.
    assert ((ndim t <=? x) || (ndim t <=? y) = false) as -> by (apply orb_false_iff; split; apply Nat.leb_gt; assumption).
    fold (axis_order t x). fold (axis_order t y). destruct HM as [M1 M2]. rewrite (proj2 (leqb_true _ _ _) M1), M2. cbn [negb].
    assert (flat_dims t = gather 0 (edims t) (flat_order t)) as EF by (unfold flat_dims; rewrite (wf_dims W); reflexivity).
    destruct (@breshape_complete G K t (gather 0 (edims t) (flat_order t)) W) as (out & Eout).
    - rewrite EF. intros d Hd. unfold gather in Hd. apply in_map_iff in Hd. destruct Hd as (i & <- & Hi). apply Hpos, nth_In. unfold edims. rewrite map_length.
      apply (is_perm_In i (wf_perm W)), Hi.
    - rewrite EF. exists (map (fun d => [d]) (gather 0 (edims t) (flat_order t))). split; [|split].
      + generalize (gather 0 (edims t) (flat_order t)). induction l as [|d l IH]; [reflexivity|]. cbn. rewrite IH. reflexivity.
      + rewrite map_map. rewrite <- (map_id (gather 0 (edims t) (flat_order t))) at 2. apply map_ext. intros d. unfold nprod. cbn. lia.
      + intros g Hg. apply in_map_iff in Hg. destruct Hg as (d & <- & _). discriminate.
    - rewrite Eout. cbn [rbind].
      destruct (@trace_pairs G K lim blim junk lim_pos emp t x y W Hx Hy (conj M1 M2) out Eout HP) as (u' & Eu & _). exists u'. exact Eu.
  Qed.

  Theorem trace_rejects (t : bst) x y : wf_bst t -> ~ axes_match t x y \/ x = y \/ ndim t <= x \/ ndim t <= y -> lin_trace lim blim junk emp t x y = Raise.
  Proof.
    clear lim_pos. intros W H. unfold lin_trace. destruct (ndim t <? 2); [reflexivity|]. destruct (_ || _) eqn:R; [reflexivity|]. apply orb_false_iff in R. destruct R as [Rx Ry]. apply Nat.leb_gt in Rx, Ry.
    assert (~ axes_match t x y) as N by (destruct H as [H|[H|[H|H]]]; [exact H | intros M; apply (tr_ne W Rx M H) | lia | lia]).
    fold (axis_order t x). fold (axis_order t y). destruct (leqb Bool.bool_dec _ _) eqn:M1; [|reflexivity]. destruct (index_eq _ _) eqn:M2; [|reflexivity].
    exfalso. apply N. apply leqb_true in M1. split; assumption.
  Qed.
End Dense.

(** *** orders in which the pairs are right *)
Lemma ssorted_map A B (f : A -> B) (P : B -> B -> Prop) l : StronglySorted (fun x y => P (f x) (f y)) l -> StronglySorted P (map f l).
Proof.
  induction 1 as [|x l S IH H]; [constructor|]. cbn. constructor; [exact IH|]. rewrite Forall_forall in *. intros z Hz. apply in_map_iff in Hz. destruct Hz as (w & <- & Hw). apply H, Hw.
Qed.
Lemma ssorted_impl A (P Q : A -> A -> Prop) l : (forall x y, P x y -> Q x y) -> StronglySorted P l -> StronglySorted Q l.
Proof. intros I. induction 1 as [|x l S IH H]; constructor; [exact IH|]. eapply Forall_impl; [|exact H]. intros z. apply I. Qed.
Lemma sort_ext_in A (p q : A -> A -> bool) l : (forall x y, In x l -> In y l -> p x y = q x y) -> sort p l = sort q l.
Proof.
  induction l as [|x l IH]; intros H; [reflexivity|]. cbn [sort]. rewrite IH by (intros a b Ha Hb; apply H; right; assumption).
  assert (forall m, incl m l -> insert p x m = insert q x m) as I.
  { induction m as [|y m IHm]; intros Hm; [reflexivity|]. cbn [insert]. rewrite (H x y) by ((left; reflexivity) || (right; apply Hm; left; reflexivity)).
    rewrite IHm; [reflexivity | intros z Hz; apply Hm; right; exact Hz]. }
  apply I. intros z Hz. apply In_sort in Hz. exact Hz.
Qed.
Lemma paired_fixed o0 o1 : ranked o0 = o0 -> ranked o1 = o1 -> paired o0 o1.
Proof. intros E0 E1. unfold paired. rewrite E0, E1. apply incl_refl. Qed.
Lemma sort_gather o : sort Nat.leb o = gather 0 o (argsort_nat o).
Proof.
  apply (@sorted_unique _ (fun i j : nat => Nat.leb i j = true)).
  - intros a b A B. apply Nat.leb_le in A, B. lia.
  - apply sort_sorted; [intros a b; rewrite !Nat.leb_le; lia | intros a b c; rewrite !Nat.leb_le; lia].
  - unfold gather. apply ssorted_map.
    apply sort_sorted; [intros a b; rewrite !Nat.leb_le; lia | intros a b c; rewrite !Nat.leb_le; lia].
  - rewrite sort_perm. unfold gather. rewrite (argsort_perm o). fold (gather 0 o (seq 0 (length o))). rewrite gather_seq. reflexivity.
Qed.
Lemma sort_fixed o : StronglySorted lt o -> sort Nat.leb o = o.
Proof.
  intros S. apply (@sorted_unique _ (fun i j : nat => Nat.leb i j = true)).
  - intros a b A B. apply Nat.leb_le in A, B. lia.
  - apply sort_sorted; [intros a b; rewrite !Nat.leb_le; lia | intros a b c; rewrite !Nat.leb_le; lia].
  - apply (ssorted_impl (P := lt)); [intros a b Hab; apply Nat.leb_le; lia | exact S].
  - apply sort_perm.
Qed.
(** legs in increasing order *)
Lemma ranked_increasing o : StronglySorted lt o -> ranked o = o.
Proof. intros S. unfold ranked. rewrite (sort_fixed S) at 1. rewrite <- sort_gather. apply sort_fixed, S. Qed.
(** at most two legs *)
Lemma ranked_two o : length o <= 2 -> ranked o = o.
Proof.
  destruct o as [|a [|b [|c o]]]; intros H; [reflexivity | reflexivity | | cbn in H; lia].
  unfold ranked, argsort_nat. cbn. destruct (Nat.leb_spec a b); cbn; reflexivity.
Qed.
(** legs in the same relative order *)
Definition same_order (o0 o1 : list nat) : Prop :=
  length o0 = length o1 /\ forall i j, i < length o0 -> j < length o0 -> (nth i o0 0 <= nth j o0 0 <-> nth i o1 0 <= nth j o1 0).
Lemma paired_same_order o0 o1 : same_order o0 o1 -> paired o0 o1.
Proof.
  intros [L H]. assert (argsort_nat o0 = argsort_nat o1) as E.
  { unfold argsort_nat. rewrite <- L. apply sort_ext_in. intros i j Hi Hj. apply in_seq in Hi, Hj. apply eq_true_iff_eq. rewrite !Nat.leb_le. apply H; lia. }
  unfold paired, ranked. intros [e f] Hef. destruct (In_nth _ _ (0, 0) Hef) as (k & Hk & Ek). rewrite combine_length, !gather_length, !argsort_length, <- L, Nat.min_id in Hk.
  rewrite combine_nth in Ek by (rewrite !gather_length, !argsort_length; exact L). rewrite !nth_gather in Ek by (rewrite argsort_length, <- ?L; exact Hk).
  rewrite !sort_gather, <- E in Ek. set (q := nth k (argsort_nat o0) 0) in Ek.
  assert (q < length o0) as Hq by (apply argsort_lt, nth_In; rewrite argsort_length; exact Hk).
  rewrite !nth_gather in Ek by (rewrite argsort_length, <- ?L; exact Hq). set (r := nth q (argsort_nat o0) 0) in Ek.
  assert (r < length o0) as Hr by (apply argsort_lt, nth_In; rewrite argsort_length; exact Hq).
  rewrite <- combine_nth in Ek by exact L. rewrite <- Ek. apply nth_In. rewrite combine_length, <- L, Nat.min_id. exact Hr.
Qed.
