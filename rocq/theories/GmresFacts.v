(** * GmresFacts: Gram-Schmidt, rotations, back substitution *)
From Coq Require Import Field.
From Verif Require Import Prelude Algebra Krylov KrylovFacts KrylovSpec Gmres GmresSpec.
Set Implicit Arguments.
Unset Strict Implicit.

Lemma put_length T (l : list T) i x : length (put l i x) = length l.
Proof.
  unfold put. destruct (i <? length l) eqn:E; [|reflexivity]. apply Nat.ltb_lt in E.
  rewrite app_length, firstn_length. cbn [length]. rewrite skipn_length. lia.
Qed.
Lemma put_same T (l : list T) i x d : i < length l -> nth i (put l i x) d = x.
Proof.
  intros H. unfold put. rewrite (proj2 (Nat.ltb_lt _ _) H). rewrite app_nth2; rewrite firstn_length; [|lia].
  replace (i - Nat.min i (length l)) with 0 by lia. reflexivity.
Qed.
Lemma put_other T (l : list T) i j x d : j <> i -> nth j (put l i x) d = nth j l d.
Proof.
  intros H. unfold put. destruct (i <? length l) eqn:E; [|reflexivity]. apply Nat.ltb_lt in E.
  rewrite <- (firstn_skipn i l) at 3.
  destruct (Nat.lt_ge_cases j i) as [L|L].
  - rewrite !app_nth1; [reflexivity| |]; rewrite firstn_length; lia.
  - rewrite !app_nth2; rewrite firstn_length; [|lia..].
    replace (j - Nat.min i (length l)) with (S (j - S i)) by lia.
    destruct (skipn i l) as [|y s] eqn:Es.
    + apply (f_equal (@length T)) in Es. rewrite skipn_length in Es. simpl in Es. lia.
    + replace (skipn (S i) l) with s; [reflexivity|]. rewrite <- (firstn_skipn i l), Es at 1.
      rewrite skipn_app, firstn_length. replace (S i - Nat.min i (length l)) with 1 by lia.
      rewrite skipn_all2; [reflexivity|]. rewrite firstn_length. lia.
Qed.

Section Facts.
  Context {K : cfd} {V : ips K}.
  Add Field Kf : (cfth K).
  Implicit Types x z r : V.

  Ltac vext := apply vec_ext; let z := fresh "z" in intros z;
    rewrite ?ip_sub, ?ip_add, ?ip_vs, ?ip_0, ?ip_add, ?ip_vs.

  (** ** Gram-Schmidt *)
  Lemma gs_scan_length (l : list V) r : length (snd (gs_scan r l)) = length l.
  Proof.
    revert r. induction l as [|v l IH]; intros r; [reflexivity|]. simpl.
    specialize (IH (vsub r (vs (ip v r) v))). destruct (gs_scan _ l) as [r' hs]. simpl in *. lia.
  Qed.
  Lemma gs_scan_sum (l : list V) r :
    r = va (fst (gs_scan r l)) (vsum (length l) (fun i => vs (nth i (snd (gs_scan r l)) r0) (nth i l vz))).
  Proof.
    revert r. induction l as [|v l IH]; intros r.
    - simpl. unfold vsum. simpl. symmetry. apply va_z.
    - cbn [gs_scan length]. specialize (IH (vsub r (vs (ip v r) v))).
      destruct (gs_scan (vsub r (vs (ip v r) v)) l) as [r' hs]. cbn [fst snd] in *. rewrite vsum_shift. cbn [nth].
      apply vec_ext. intros z. rewrite !ip_add, ip_vs.
      apply (f_equal (ip z)) in IH. rewrite ip_add, ip_sub, ip_vs in IH.
      transitivity (ip v r *! ip z v +! (ip z r -! ip v r *! ip z v)); [ring|rewrite IH; ring].
  Qed.
  (** each vector has length 1 or is zero, and they are orthogonal to each other *)
  Definition ortho (l : list V) : Prop :=
    forall i j, i < length l -> j < length l ->
      (i <> j -> ip (nth i l vz) (nth j l vz) = r0) /\ (ip (nth i l vz) (nth i l vz) = r1 \/ nth i l vz = vz).
  Lemma ortho_tl v l : ortho (v :: l) -> ortho l.
  Proof.
    intros H i j Hi Hj. destruct (H (S i) (S j)) as [H1 H2]; simpl; try lia. simpl in *. split; [|exact H2].
    intros N. apply H1. lia.
  Qed.
  Lemma gs_scan_keep (l : list V) r x : (forall i, i < length l -> ip x (nth i l vz) = r0) -> ip x (fst (gs_scan r l)) = ip x r.
  Proof.
    intros H. rewrite (gs_scan_sum l r) at 2. rewrite ip_add, ip_vsum, nsum_zero; [ring|].
    intros i Hi. rewrite ip_vs, H by exact Hi. ring.
  Qed.
  Lemma gs_scan_orth (l : list V) r i : ortho l -> i < length l -> ip (nth i l vz) (fst (gs_scan r l)) = r0.
  Proof.
    revert r i. induction l as [|v l IH]; intros r i Ho Hi; [simpl in Hi; lia|].
    cbn [gs_scan]. destruct (gs_scan (vsub r (vs (ip v r) v)) l) as [r' hs] eqn:E. cbn [fst].
    replace r' with (fst (gs_scan (vsub r (vs (ip v r) v)) l)) by (rewrite E; reflexivity). destruct i as [|i].
    - cbn [nth]. rewrite gs_scan_keep.
      + rewrite ip_sub, ip_vs. destruct (Ho 0 0) as [_ [H|H]]; simpl in *; try lia.
        * rewrite H. ring.
        * rewrite H, ip_0l. ring.
      + intros j Hj. destruct (Ho 0 (S j)) as [H _]; simpl in *; try lia. apply H. lia.
    - cbn [nth]. apply IH; [exact (ortho_tl Ho)|simpl in Hi; lia].
  Qed.

  (** ** Rotated bases *)
  Section Rot.
    Variable v : nat -> V.
    Variable g : nat -> K * K.
    Fixpoint uu (i : nat) : V :=
      match i with 0 => v 0 | S i => va (vs (snd (g i)) (uu i)) (vs (fst (g i)) (v (S i))) end.
    Definition ww (i : nat) : V := va (vs (fst (g i)) (uu i)) (vs (cop (snd (g i))) (v (S i))).
    Definition unit_rot (p : K * K) : Prop := fst p *! fst p +! snd p *! snd p = r1.
    Lemma rot_u i : unit_rot (g i) -> uu i = va (vs (fst (g i)) (ww i)) (vs (snd (g i)) (uu (S i))).
    Proof.
      unfold unit_rot. intros H. vext. unfold ww. simpl uu. rewrite !ip_add, !ip_vs.
      transitivity ((fst (g i) *! fst (g i) +! snd (g i) *! snd (g i)) *! ip z (uu i)); [rewrite H; ring|ring].
    Qed.
    Lemma rot_v i : unit_rot (g i) -> v (S i) = va (vs (cop (snd (g i))) (ww i)) (vs (fst (g i)) (uu (S i))).
    Proof.
      unfold unit_rot. intros H. vext. unfold ww. simpl uu. rewrite !ip_add, !ip_vs.
      transitivity ((fst (g i) *! fst (g i) +! snd (g i) *! snd (g i)) *! ip z (v (S i))); [rewrite H; ring|ring].
    Qed.

    (** the vector whose coordinates are col: rotated below i, not yet above *)
    Definition mixed (i m : nat) (col : nat -> K) : V :=
      va (va (vsum i (fun j => vs (col j) (ww j))) (vs (col i) (uu i)))
         (vsum (m - i) (fun t => vs (col (S i + t)) (v (S i + t)))).
    Lemma mixed_0 m col : mixed 0 m col = vsum (S m) (fun j => vs (col j) (v j)).
    Proof.
      unfold mixed. rewrite Nat.sub_0_r, (vsum_shift m (fun j => vs (col j) (v j))). cbn [uu].
      vext. unfold vsum at 1. simpl. rewrite ip_0. ring_simplify. reflexivity.
    Qed.
    Lemma mixed_S i m col col' : i < m -> unit_rot (g i) ->
      (forall j, j <> i -> j <> S i -> col' j = col j) ->
      col' i = fst (g i) *! col i -! snd (g i) *! col (S i) ->
      col' (S i) = snd (g i) *! col i +! fst (g i) *! col (S i) ->
      mixed (S i) m col' = mixed i m col.
    Proof.
      intros Hi Hu Ho Ha Hb. unfold mixed.
      replace (m - i) with (S (m - S i)) by lia. rewrite (vsum_S i), (vsum_shift (m - S i)).
      rewrite (@vsum_ext K V i (fun j => vs (col' j) (ww j)) (fun j => vs (col j) (ww j))) by (intros j Hj; rewrite Ho by lia; reflexivity).
      rewrite (@vsum_ext K V (m - S i) (fun t => vs (col' (S (S i) + t)) (v (S (S i) + t))) (fun t => vs (col (S i + S t)) (v (S i + S t)))).
      2:{ intros j Hj. replace (S i + S j) with (S (S i) + j) by lia. rewrite Ho by lia. reflexivity. }
      rewrite Nat.add_0_r, Ha, Hb. rewrite (rot_u Hu), (rot_v Hu).
      vext. rewrite ?ip_add, ?ip_vs, ?ip_add, ?ip_vs. ring.
    Qed.

    (** orthogonality, over the real numbers *)
    Hypothesis Hr : forall a : K, cj a = a.
    Lemma ip_sym x y : ip x y = ip y x.
    Proof. rewrite ip_cj, Hr. reflexivity. Qed.
    Variable k : nat.
    Hypothesis Hv : forall i j, i <= k -> j <= k -> ip (v i) (v j) = delta_ i j.
    Hypothesis Hg : forall i, i < k -> unit_rot (g i).
    Lemma uu_v i j : i < j -> j <= k -> ip (uu i) (v j) = r0.
    Proof.
      induction i as [|i IH]; intros Hij Hj; cbn [uu].
      - rewrite Hv by lia. unfold delta_. destruct (Nat.eqb_spec 0 j); [lia|reflexivity].
      - rewrite ip_addl, !ip_vsl, !Hr, IH, Hv by lia. unfold delta_. destruct (Nat.eqb_spec (S i) j); [lia|ring].
    Qed.
    Lemma uu_unit i : i <= k -> ip (uu i) (uu i) = r1.
    Proof.
      induction i as [|i IH]; intros Hi; cbn [uu].
      - rewrite Hv by lia. reflexivity.
      - rewrite ip_addl, !ip_add, !ip_vsl, !ip_vs, !Hr, IH by lia. rewrite (ip_sym (v (S i)) (uu i)), uu_v, Hv by lia.
        unfold delta_. rewrite Nat.eqb_refl. pose proof (@Hg i ltac:(lia)) as H. unfold unit_rot in H.
        transitivity (fst (g i) *! fst (g i) +! snd (g i) *! snd (g i)); [ring|exact H].
    Qed.
    Lemma ww_v i j : S i < j -> j <= k -> ip (ww i) (v j) = r0.
    Proof.
      intros Hij Hj. unfold ww. rewrite ip_addl, !ip_vsl, !Hr, uu_v, Hv by lia. unfold delta_.
      destruct (Nat.eqb_spec (S i) j); [lia|ring].
    Qed.
    Lemma ww_uu i j : i < j -> j <= k -> ip (ww i) (uu j) = r0.
    Proof.
      intros Hij. induction j as [|j IH]; intros Hj; [lia|]. cbn [uu]. rewrite ip_add, !ip_vs.
      destruct (Nat.eq_dec i j) as [->|N].
      - unfold ww. rewrite !ip_addl, !ip_vsl, !Hr, uu_unit, uu_v, (ip_sym (v (S j)) (uu j)), uu_v, Hv by lia.
        unfold delta_. rewrite Nat.eqb_refl. ring.
      - rewrite IH, ww_v by lia. ring.
    Qed.
  End Rot.

  Lemma uu_ext (v v' : nat -> V) g g' i : (forall j, j <= i -> v j = v' j) -> (forall j, j < i -> g j = g' j) -> uu v g i = uu v' g' i.
  Proof.
    induction i as [|i IH]; intros H1 H2; cbn [uu]; [apply H1; lia|].
    rewrite H1, H2, IH by (intros; lia || (apply H1; lia) || (apply H2; lia)). reflexivity.
  Qed.
  Lemma ww_ext (v v' : nat -> V) g g' i : (forall j, j <= S i -> v j = v' j) -> (forall j, j <= i -> g j = g' j) -> ww v g i = ww v' g' i.
  Proof.
    intros H1 H2. unfold ww. rewrite (H1 (S i)), (H2 i) by lia.
    rewrite (@uu_ext v v' g g' i) by (intros j Hj; (apply H1; lia) || (apply H2; lia)). reflexivity.
  Qed.

  (** ** [apply_rotations] *)
  Definition gat (gs : list (K * K)) (i : nat) : K * K := nth i gs (r0, r0).
  Lemma apply_rotations_S col (gs : list (K * K)) i n :
    apply_rotations col gs i (S n) =
    apply_rotations (put (put col i (fst (gat gs i) *! nth i col r0 -! snd (gat gs i) *! nth (S i) col r0)) (S i)
                       (snd (gat gs i) *! nth i col r0 +! fst (gat gs i) *! nth (S i) col r0)) gs (S i) n.
  Proof. cbn [apply_rotations]. unfold gat. destruct (nth i gs (r0, r0)) as [cs sn]. reflexivity. Qed.
  Lemma apply_rotations_length gs n : forall col i, length (apply_rotations (K := K) col gs i n) = length col.
  Proof.
    induction n as [|n IH]; intros col i; [reflexivity|]. rewrite apply_rotations_S, IH, !put_length. reflexivity.
  Qed.
  Lemma apply_rotations_above gs n : forall (col : list K) i j, i + n < j -> nth j (apply_rotations col gs i n) r0 = nth j col r0.
  Proof.
    induction n as [|n IH]; intros col i j Hj; [reflexivity|]. rewrite apply_rotations_S, IH by lia.
    rewrite !put_other by lia. reflexivity.
  Qed.
  Lemma apply_rotations_mixed (v : nat -> V) gs m n : forall col i, i + n <= m -> m < length col ->
    (forall j, j < i + n -> unit_rot (gat gs j)) ->
    mixed v (gat gs) (i + n) m (fun j => nth j (apply_rotations col gs i n) r0) = mixed v (gat gs) i m (fun j => nth j col r0).
  Proof.
    induction n as [|n IH]; intros col i Hm Hl Hu.
    - rewrite Nat.add_0_r. reflexivity.
    - rewrite apply_rotations_S. replace (i + S n) with (S i + n) by lia.
      rewrite IH; [|lia|rewrite !put_length; lia|intros j Hj; apply Hu; lia].
      apply mixed_S; [lia|apply Hu; lia|..].
      + intros j N1 N2. rewrite !put_other by assumption. reflexivity.
      + rewrite put_other, put_same by lia. reflexivity.
      + rewrite put_same by (rewrite put_length; lia). reflexivity.
  Qed.

  (** ** back substitution *)
  Definition up (r : list (list K)) (i j : nat) : K := if i <=? j then nth i (nth j r []) r0 else r0.
  Lemma back_subst_ok (r : list (list K)) (b : list K) q : forall i (y0 y : list K), back_subst r b i y0 = Val y -> length y0 + i = q ->
    (forall i', i <= i' -> i' < q -> nsum (q - i) (fun j => up r i' (i + j) *! nth j y0 r0) = nth i' b r0) ->
    length y = q /\ forall i', i' < q -> nsum q (fun j => up r i' j *! nth j y r0) = nth i' b r0.
  Proof.
    induction i as [|i IH]; intros y0 y E Hl H.
    - injection E as <-. split; [lia|]. intros i' Hi'. rewrite <- (H i') by lia. rewrite Nat.sub_0_r. reflexivity.
    - cbn [back_subst] in E. destruct (cdec _ _) as [|Nd]; [discriminate|].
      apply IH in E; [exact E|simpl; lia|]. intros i' H1 H2.
      replace (q - i) with (S (q - S i)) by lia. rewrite nsum_shift. cbn [nth]. rewrite Nat.add_0_r.
      destruct (Nat.eq_dec i' i) as [->|N].
      + unfold up at 1. rewrite Nat.leb_refl.
        rewrite (@nsum_ext K (q - S i) (fun j => up r i (i + S j) *! nth j y0 r0) (fun j => nth i (nth (S i + j) r []) r0 *! nth j y0 r0)).
        2:{ intros j Hj. unfold up. rewrite (proj2 (Nat.leb_le i (i + S j))) by lia. replace (i + S j) with (S i + j) by lia. reflexivity. }
        replace (q - S i) with (length y0) by lia. change (S i) with (1 + i). cbn [plus]. field. exact Nd.
      + unfold up at 1. rewrite (proj2 (Nat.leb_gt i' i)) by lia.
        rewrite (@nsum_ext K (q - S i) (fun j => up r i' (i + S j) *! nth j y0 r0) (fun j => up r i' (S i + j) *! nth j y0 r0)).
        2:{ intros j Hj. replace (i + S j) with (S i + j) by lia. reflexivity. }
        rewrite H by lia. ring.
  Qed.
End Facts.
