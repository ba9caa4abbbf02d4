(** * Proofs about the MERA updates *)
From Coq Require Import List Field Lia.
From Verif Require Import Prelude Algebra Tensor TensorFacts Backends BackendSpec BackendFacts DecompFacts GraphCopy Krylov KrylovFacts KerasCall Mera MeraSpec.
Set Implicit Arguments.
Unset Strict Implicit.

Section Mat.
  Context {K : cfd}.
  Add Field Kf2 : (cfth K).

  Lemma nsum_mul m n (f g : nat -> K) : nsum m f *! nsum n g = nsum m (fun x => nsum n (fun y => f x *! g y)).
  Proof. apply lsum_mul. Qed.
  Lemma cpos_nsum n (f : nat -> K) : (forall i, i < n -> cpos (f i)) -> cpos (nsum n f).
  Proof. intros H. apply cpos_lsum. intros i Hi. apply in_seq in Hi. apply H. lia. Qed.
  Lemma cop_nsum n (f : nat -> K) : cop (nsum n f) = nsum n (fun i => cop (f i)).
  Proof. apply cop_lsum. Qed.
  Lemma nsum_delta n k (f : nat -> K) : k < n -> nsum n (fun i => f i *! (if k =? i then r1 else r0)) = f k.
  Proof.
    intros H. rewrite (@nsum_single _ n _ k H).
    - rewrite Nat.eqb_refl. ring.
    - intros i _ Hi. replace (k =? i) with false by (symmetry; apply Nat.eqb_neq; congruence). ring.
  Qed.

  Variables (m n k : nat) (u v : nat -> nat -> K) (s : nat -> K).
  Hypothesis Hu : forall a b, a < k -> b < k -> nsum m (fun i => u i a *! cj (u i b)) = if a =? b then r1 else r0.
  Hypothesis Hv : forall a b, a < k -> b < k -> nsum n (fun j => v a j *! cj (v b j)) = if a =? b then r1 else r0.
  Definition wm (i j : nat) : K := cj (nsum k (fun a => u i a *! v a j)).
  Definition em (i j : nat) : K := nsum k (fun a => u i a *! s a *! v a j).

  (** the columns of u v are orthonormal if those of v are *)
  Lemma wm_gram j j' :
    nsum m (fun i => cj (wm i j) *! wm i j') = nsum k (fun a => v a j *! cj (v a j')).
  Proof.
    transitivity (nsum k (fun a => nsum k (fun b => v a j *! cj (v b j') *! nsum m (fun i => u i a *! cj (u i b))))).
    - transitivity (nsum m (fun i => nsum k (fun a => nsum k (fun b => v a j *! cj (v b j') *! (u i a *! cj (u i b)))))).
      + apply nsum_ext. intros i _. unfold wm. rewrite cj_inv, cj_nsum, nsum_mul.
        apply nsum_ext. intros a _. apply nsum_ext. intros b _. rewrite cj_mul. ring.
      + rewrite nsum_swap. apply nsum_ext. intros a _. rewrite nsum_swap. apply nsum_ext. intros b _. apply nsum_mul_l.
    - apply nsum_ext. intros a Ha. rewrite <- (@nsum_delta k a (fun b => v a j *! cj (v b j')) Ha).
      apply nsum_ext. intros b Hb. rewrite Hu by assumption. reflexivity.
  Qed.

  Definition obj (x : nat -> nat -> K) : K := nsum m (fun i => nsum n (fun j => em i j *! x i j)).

  Lemma obj_split x : obj x = nsum k (fun a => s a *! nsum m (fun i => u i a *! nsum n (fun j => v a j *! x i j))).
  Proof.
    unfold obj, em.
    transitivity (nsum m (fun i => nsum k (fun a => s a *! (u i a *! nsum n (fun j => v a j *! x i j))))).
    - apply nsum_ext. intros i _. transitivity (nsum n (fun j => nsum k (fun a => s a *! (u i a *! (v a j *! x i j))))).
      + apply nsum_ext. intros j _. rewrite <- nsum_mul_r. apply nsum_ext. intros a _. ring.
      + rewrite nsum_swap. apply nsum_ext. intros a _. rewrite nsum_mul_l, nsum_mul_l. reflexivity.
    - rewrite nsum_swap. apply nsum_ext. intros a _. apply nsum_mul_l.
  Qed.

  Lemma obj_wm : obj wm = nsum k s.
  Proof.
    rewrite obj_split. apply nsum_ext. intros a Ha.
    assert (E : nsum m (fun i => u i a *! nsum n (fun j => v a j *! wm i j)) = r1); [|rewrite E; ring].
    transitivity (nsum m (fun i => u i a *! cj (u i a))).
    - apply nsum_ext. intros i _. f_equal.
      transitivity (nsum k (fun b => cj (u i b) *! nsum n (fun j => v a j *! cj (v b j)))).
      + transitivity (nsum n (fun j => nsum k (fun b => cj (u i b) *! (v a j *! cj (v b j))))).
        * apply nsum_ext. intros j _. unfold wm. rewrite cj_nsum, <- nsum_mul_l. apply nsum_ext. intros b _. rewrite cj_mul. ring.
        * rewrite nsum_swap. apply nsum_ext. intros b _. apply nsum_mul_l.
      + rewrite <- (@nsum_delta k a (fun b => cj (u i b)) Ha). apply nsum_ext. intros b Hb. rewrite Hv by assumption. reflexivity.
    - rewrite Hu by assumption. rewrite Nat.eqb_refl. reflexivity.
  Qed.

  (** the bound: 2 sum s - 2 Re obj = sum of s |u - conj(x v)|^2 *)
  Lemma obj_bound x : (forall a, a < k -> cpos (s a)) ->
    (forall j j', j < n -> j' < n -> nsum m (fun i => cj (x i j) *! x i j') = if j =? j' then r1 else r0) ->
    cpos ((nsum k s +! nsum k s) -! (obj x +! cj (obj x))).
  Proof.
    intros Hs Hx. set (y := fun i a => nsum n (fun j => v a j *! x i j)).
    assert (Hy : forall a, a < k -> nsum m (fun i => cj (y i a) *! y i a) = r1).
    { intros a Ha.
      transitivity (nsum n (fun j => nsum n (fun j' => (cj (v a j) *! v a j') *! nsum m (fun i => cj (x i j) *! x i j')))).
      - transitivity (nsum m (fun i => nsum n (fun j => nsum n (fun j' => (cj (v a j) *! v a j') *! (cj (x i j) *! x i j'))))).
        + apply nsum_ext. intros i _. unfold y. rewrite cj_nsum, nsum_mul.
          apply nsum_ext. intros j _. apply nsum_ext. intros j' _. rewrite cj_mul. ring.
        + rewrite nsum_swap. apply nsum_ext. intros j _. rewrite nsum_swap. apply nsum_ext. intros j' _. apply nsum_mul_l.
      - transitivity (nsum n (fun j => v a j *! cj (v a j))).
        + apply nsum_ext. intros j Hj. transitivity (cj (v a j) *! v a j); [|ring].
          rewrite <- (@nsum_delta n j (fun j' => cj (v a j) *! v a j') Hj). apply nsum_ext. intros j' Hj'.
          rewrite Hx by assumption. reflexivity.
        + rewrite Hv by assumption. rewrite Nat.eqb_refl. reflexivity. }
    assert (E : (nsum k s +! nsum k s) -! (obj x +! cj (obj x)) =
      nsum k (fun a => s a *! nsum m (fun i => cj (cj (u i a) -! y i a) *! (cj (u i a) -! y i a)))).
    { rewrite obj_split, cj_nsum, <- !nsum_add, cop_nsum, <- nsum_add. apply nsum_ext. intros a Ha.
      rewrite cj_mul, (cpos_real (Hs a Ha)).
      assert (E1 : nsum m (fun i => cj (cj (u i a) -! y i a) *! (cj (u i a) -! y i a)) =
        (r1 +! r1) -! (nsum m (fun i => u i a *! y i a) +! cj (nsum m (fun i => u i a *! y i a)))).
      { rewrite <- (Hy a Ha) at 2. transitivity (nsum m (fun i => u i a *! cj (u i a)) +! nsum m (fun i => cj (y i a) *! y i a)
          -! (nsum m (fun i => u i a *! y i a) +! cj (nsum m (fun i => u i a *! y i a)))).
        - rewrite cj_nsum, <- !nsum_add, cop_nsum, <- nsum_add. apply nsum_ext. intros i _.
          rewrite cj_add, cj_op, cj_inv, cj_mul. ring.
        - rewrite Hu by assumption. rewrite Nat.eqb_refl. reflexivity. }
      rewrite E1. unfold y. ring. }
    rewrite E. apply cpos_nsum. intros a Ha. apply cpos_mul; [apply Hs; exact Ha|].
    apply cpos_nsum. intros i _. apply cpos_sq.
  Qed.
End Mat.

Section Tens.
  Context {K : cfd}.
  Add Field Kf3 : (cfth K).
  Notation tensor := (tensor K).

  (** contraction of the last axis with the first *)
  Lemma td_last_first (a b : tensor) L k Rt : shape a = L ++ [k] -> shape b = k :: Rt ->
    shape (tensordot a b [rank a - 1] [0]) = L ++ Rt /\
    forall il ir, valid il L -> valid ir Rt ->
      elt (tensordot a b [rank a - 1] [0]) (il ++ ir) = nsum k (fun j => elt a (il ++ [j]) *! elt b (j :: ir)).
  Proof.
    intros Sa Sb. assert (Ra : rank a = length L + 1) by (unfold rank; rewrite Sa, app_length; reflexivity).
    assert (Rb : rank b = S (length Rt)) by (unfold rank; rewrite Sb; reflexivity).
    replace (rank a - 1) with (length L) by lia.
    assert (Ga : gather 0 (shape a) [length L] = [k]).
    { rewrite Sa. unfold gather. cbn [map]. rewrite app_nth2, Nat.sub_diag by lia. reflexivity. }
    split.
    - cbn [tensordot shape]. rewrite Ra, Rb, free_last, free_head, Sa, Sb. rewrite gather_seq_start.
      f_equal. apply (@gather_seq_end nat 0 [k] Rt).
    - intros il ir Hl Hr. pose proof (valid_length Hl) as Ll. pose proof (valid_length Hr) as Lr.
      rewrite (@td_at K a b [length L] [0] il ir (fun vs => il ++ vs) (fun vs => vs ++ ir)).
      + rewrite Ga. rewrite lsum_idxs_cons. apply nsum_ext. intros j _. cbn [idxs]. rewrite lsum_cons, lsum_nil. cbn [app]. ring.
      + repeat constructor; auto.
      + repeat constructor; auto.
      + intros i [<- | []]. lia.
      + intros i [<- | []]. lia.
      + rewrite Ra, free_last, seq_length. exact Ll.
      + intros vs Hvs. rewrite Ga in Hvs. pose proof (valid_length Hvs) as Lv. cbn in Lv.
        rewrite Ra, free_last, app_length, Lv, Ll. split; [reflexivity|]. rewrite <- Ll, gather_seq_start. split; [reflexivity|].
        destruct vs as [|x [|]]; try discriminate. unfold gather. cbn [map]. rewrite app_nth2, Nat.sub_diag by lia. reflexivity.
      + intros vs Hvs. rewrite Ga in Hvs. pose proof (valid_length Hvs) as Lv. cbn in Lv.
        destruct vs as [|x [|]]; try discriminate. rewrite Rb, free_head. cbn [app length]. rewrite Lr. split; [reflexivity|].
        split; [|reflexivity]. rewrite <- Lr. apply (@gather_seq_end nat 0 [x] ir).
  Qed.

  Section Polar.
    Variables (svdf : tensor -> tensor * list K * tensor) (env : tensor) (p : nat) (u0 v0 : tensor) (s0 : list K).
    Notation L := (firstn p (shape env)).
    Notation Rt := (skipn p (shape env)).
    Hypothesis Eq : svdf (as_matrix env p) = (u0, s0, v0).
    Hypothesis Hs : is_svd (as_matrix env p) u0 s0 v0.
    Hypothesis Hu : orthonormal_cols u0 (nprod L) (length s0).
    Hypothesis Hv : orthonormal_rows v0 (length s0) (nprod Rt).
    Let um i a := elt u0 [i; a].
    Let vm a j := elt v0 [a; j].
    Let sm a := nth a s0 r0.

    Lemma polar_elt : shape (polar_update svdf env p) = L ++ Rt /\
      forall il ir, valid il L -> valid ir Rt ->
        elt (polar_update svdf env p) (il ++ ir) = wm (length s0) um vm (ravel L il) (ravel Rt ir).
    Proof.
      unfold polar_update. pose proof Hs as (Su & Ss & Sv & _). unfold svd. rewrite Eq. cbv zeta.
      unfold rows, cols in *. cbn [shape as_matrix reshape nth] in Su, Ss, Sv.
      rewrite firstn_all, Su, Sv. cbn [nth].
      destruct (@td_last_first (reshape (Tensor [nprod L; length s0] (elt u0)) (L ++ [length s0]))
        (reshape (Tensor [length s0; nprod Rt] (elt v0)) (length s0 :: Rt)) L (length s0) Rt eq_refl eq_refl) as [E1 E2].
      split; [exact E1|]. intros il ir Hl Hr. unfold conj_t. cbn [elt]. rewrite E2 by assumption. unfold wm. f_equal.
      apply nsum_ext. intros j Hj.
      rewrite (@left_factor K (Tensor [nprod L; length s0] (elt u0)) L (nprod L) (length s0) il j eq_refl eq_refl Hl Hj).
      rewrite (@right_factor K (Tensor [length s0; nprod Rt] (elt v0)) Rt (nprod Rt) (length s0) ir j eq_refl eq_refl Hr Hj).
      reflexivity.
    Qed.

    Lemma env_elt il ir : valid il L -> valid ir Rt ->
      elt env (il ++ ir) = em (length s0) um vm sm (ravel L il) (ravel Rt ir).
    Proof.
      intros Hl Hr. pose proof Hs as (Su & Ss & Sv & Hp). rewrite <- (as_matrix_elt Hl Hr), <- Hp.
      - reflexivity.
      - apply ravel_lt; exact Hl.
      - apply ravel_lt; exact Hr.
    Qed.

    Lemma objective_mat (x : tensor) (xm : nat -> nat -> K) :
      (forall il ir, valid il L -> valid ir Rt -> elt x (il ++ ir) = xm (ravel L il) (ravel Rt ir)) ->
      objective env x = obj (nprod L) (nprod Rt) (length s0) um vm sm xm.
    Proof.
      intros Hx. unfold objective, obj. rewrite <- (firstn_skipn p (shape env)) at 1. rewrite lsum_idxs_app.
      rewrite <- (nsum_ravel L). apply lsum_ext. intros il Hl. apply In_idxs in Hl.
      rewrite <- (nsum_ravel Rt (fun j => em (length s0) um vm sm (ravel L il) j *! xm (ravel L il) j)).
      apply lsum_ext. intros ir Hr. apply In_idxs in Hr. rewrite (env_elt Hl Hr), (Hx il ir Hl Hr). reflexivity.
    Qed.

    Theorem polar_value : objective env (polar_update svdf env p) = lsum s0 (fun x => x).
    Proof.
      rewrite (objective_mat (proj2 polar_elt)), obj_wm.
      - unfold sm, nsum. rewrite <- (lsum_map (fun a => nth a s0 r0) (seq 0 (length s0)) (fun x => x)).
        f_equal. apply (gather_seq r0 s0).
      - intros a b Ha Hb. apply Hu; assumption.
      - intros a b Ha Hb. apply Hv; assumption.
    Qed.

    (** orthonormal columns of v0 *)
    Theorem polar_isometry :
      (forall j j', j < nprod Rt -> j' < nprod Rt ->
         nsum (length s0) (fun a => elt v0 [a; j] *! cj (elt v0 [a; j'])) = if j =? j' then r1 else r0) ->
      isometry L Rt (polar_update svdf env p).
    Proof.
      intros Hc. split; [apply polar_elt|]. intros ir ir' Hr Hr'.
      transitivity (nsum (nprod L) (fun i => cj (wm (length s0) um vm i (ravel Rt ir)) *! wm (length s0) um vm i (ravel Rt ir'))).
      - rewrite <- (nsum_ravel L (fun i => cj (wm (length s0) um vm i (ravel Rt ir)) *! wm (length s0) um vm i (ravel Rt ir'))).
        apply lsum_ext. intros il Hl. apply In_idxs in Hl.
        rewrite !(proj2 polar_elt) by assumption. reflexivity.
      - rewrite wm_gram by (intros a b Ha Hb; apply Hu; assumption). unfold vm. rewrite Hc by (apply ravel_lt; assumption).
        destruct (list_eq_dec Nat.eq_dec ir ir') as [->|Hne]; [rewrite Nat.eqb_refl; reflexivity|].
        destruct (Nat.eqb_spec (ravel Rt ir) (ravel Rt ir')) as [E|_]; [|reflexivity].
        exfalso. apply Hne. rewrite <- (unravel_ravel Hr), <- (unravel_ravel Hr'), E. reflexivity.
    Qed.

    Lemma iso_bound (x : tensor) : (forall y, In y s0 -> cpos y) -> isometry L Rt x ->
      le (re2 (objective env x)) (lsum s0 (fun y => y) +! lsum s0 (fun y => y)).
    Proof.
      intros Hp [_ Hx]. set (xm := fun i j => elt x (unravel L i ++ unravel Rt j)).
      assert (HX : forall il ir, valid il L -> valid ir Rt -> elt x (il ++ ir) = xm (ravel L il) (ravel Rt ir)).
      { intros il ir Hl Hr. unfold xm. rewrite !unravel_ravel by assumption. reflexivity. }
      rewrite (objective_mat HX). unfold le, re2.
      assert (ES : lsum s0 (fun y => y) = nsum (length s0) sm).
      { unfold sm, nsum. rewrite <- (lsum_map (fun a => nth a s0 r0) (seq 0 (length s0)) (fun x => x)).
        f_equal. symmetry. apply (gather_seq r0 s0). }
      rewrite ES. apply obj_bound.
      - intros a b Ha Hb. apply Hu; assumption.
      - intros a b Ha Hb. apply Hv; assumption.
      - intros a Ha. apply Hp, nth_In, Ha.
      - intros j j' Hj Hj'. unfold xm.
        rewrite <- (nsum_ravel L (fun i => cj (elt x (unravel L i ++ unravel Rt j)) *! elt x (unravel L i ++ unravel Rt j'))).
        transitivity (lsum (idxs L) (fun il => cj (elt x (il ++ unravel Rt j)) *! elt x (il ++ unravel Rt j'))).
        + apply lsum_ext. intros il Hl. apply In_idxs in Hl. rewrite unravel_ravel by exact Hl. reflexivity.
        + rewrite Hx by (apply unravel_valid; assumption).
          destruct (list_eq_dec Nat.eq_dec (unravel Rt j) (unravel Rt j')) as [E|E].
          * apply (f_equal (ravel Rt)) in E. rewrite !ravel_unravel in E by assumption. subst j'. rewrite Nat.eqb_refl. reflexivity.
          * destruct (Nat.eqb_spec j j') as [->|_]; [congruence|reflexivity].
    Qed.

    (** no isometry has a larger objective *)
    Theorem polar_best (x : tensor) : (forall y, In y s0 -> cpos y) -> isometry L Rt x ->
      le (re2 (objective env x)) (re2 (objective env (polar_update svdf env p))).
    Proof.
      intros Hp Hx. rewrite polar_value. unfold re2 at 2.
      replace (cj (lsum s0 (fun y => y))) with (lsum s0 (fun y : K => y)); [apply iso_bound; assumption|].
      rewrite cj_lsum. apply lsum_ext. intros y Hy. symmetry. apply cpos_real, Hp, Hy.
    Qed.
  End Polar.
End Tens.

Section Neg.
  Context {K : cfd}.
  Add Field Kf4 : (cfth K).
  Notation tensor := (tensor K).
  Variables (svdf : tensor -> tensor * list K * tensor) (env : tensor) (p : nat) (u0 v0 : tensor) (s0 : list K).
  Notation L := (firstn p (shape env)).
  Notation Rt := (skipn p (shape env)).

  (** nor a smaller one than the negative of the result *)
  Theorem polar_least (x : tensor) : svdf (as_matrix env p) = (u0, s0, v0) -> is_svd (as_matrix env p) u0 s0 v0 ->
    orthonormal_cols u0 (nprod L) (length s0) -> orthonormal_rows v0 (length s0) (nprod Rt) ->
    (forall y, In y s0 -> cpos y) -> isometry L Rt x ->
    le (cop (re2 (objective env (polar_update svdf env p)))) (re2 (objective env x)).
  Proof.
    intros Eq Hs Hu Hv Hp [Sx Hx].
    assert (Hn : isometry L Rt (Tensor (shape x) (fun ix => cop (elt x ix)))).
    { split; [exact Sx|]. intros ir ir' Hr Hr'. rewrite <- (Hx ir ir' Hr Hr'). apply lsum_ext. intros il _. cbn [elt].
      rewrite cj_op. ring. }
    pose proof (polar_best Eq Hs Hu Hv Hp Hn) as B. unfold le in *.
    replace (objective env (Tensor (shape x) (fun ix => cop (elt x ix)))) with (cop (objective env x)) in B.
    - unfold re2 in *. rewrite cj_op in B.
      match goal with |- cpos ?a => match type of B with cpos ?b => replace a with b by ring end end. exact B.
    - unfold objective. rewrite cop_lsum. apply lsum_ext. intros ix _. cbn [elt]. ring.
  Qed.
End Neg.

Section Shift.
  Context {K : cfd}.
  Add Field Kf5 : (cfth K).
  Notation tensor := (tensor K).

  Lemma amax_step (l : list K) : forall m, cj m = m -> (forall y, In y l -> cj y = y) ->
    let r := fold_left (fun m y => if clt m y then y else m) l m in
    (r = m \/ In r l) /\ le m r /\ forall y, In y l -> le y r.
  Proof.
    induction l as [|x l IH]; intros m Hm Hl; cbn [fold_left].
    - split; [left; reflexivity|]. split; [|intros y []]. unfold le. replace (m -! m) with (r0 : K) by ring. apply cpos_0.
    - assert (Hx : cj x = x) by (apply Hl; left; reflexivity).
      set (m' := if clt m x then x else m).
      assert (Hm' : cj m' = m') by (unfold m'; destruct (clt m x); assumption).
      assert (A : le m m' /\ le x m').
      { unfold m', le. destruct (clt m x) eqn:E.
        - apply clt_ok in E. split; [apply E|]. replace (x -! x) with (r0 : K) by ring. apply cpos_0.
        - split; [replace (m -! m) with (r0 : K) by ring; apply cpos_0|].
          assert (Hr : cj (m -! x) = m -! x) by (rewrite cj_add, cj_op, Hm, Hx; reflexivity).
          destruct (cpos_total Hr) as [P|P]; [exact P|].
          destruct (cdec m x) as [->|Hne]; [replace (x -! x) with (r0 : K) by ring; apply cpos_0|].
          exfalso. assert (C : clt m x = true); [|congruence]. apply clt_ok. split; [|exact Hne].
          replace (x -! m) with (cop (m -! x)) by ring. exact P. }
      destruct (IH m' Hm' (fun y Hy => Hl y (or_intror Hy))) as (I1 & I2 & I3).
      set (r := fold_left _ l m') in *. destruct A as [A1 A2].
      assert (T : forall a, le a m' -> le a r).
      { intros a Ha. unfold le in *. replace (r -! a) with ((r -! m') +! (m' -! a)) by ring. apply cpos_add; assumption. }
      split; [|split; [apply T, A1|]].
      + destruct I1 as [I1|I1]; [|right; right; exact I1]. unfold m' in I1. destruct (clt m x); [right; left|left]; congruence.
      + intros y [<- | Hy]; [apply T, A2|apply I3, Hy].
  Qed.

  Lemma amax_ok (l : list K) : l <> [] -> (forall y, In y l -> cj y = y) -> In (amax l) l /\ forall y, In y l -> le y (amax l).
  Proof.
    destruct l as [|x l]; [congruence|]. intros _ H. cbn [amax].
    destruct (@amax_step l x (H x (or_introl eq_refl)) (fun y Hy => H y (or_intror Hy))) as (A & B & C). split.
    - destruct A as [A|A]; [left; congruence|right; exact A].
    - intros y [<- | Hy]; [exact B|apply C, Hy].
  Qed.

  Notation T3 := [2; 2; 2].
  Lemma mat_elt (h : tensor) il ir : shape h = T3 ++ T3 -> valid il T3 -> valid ir T3 ->
    elt (reshape h [8; 8]) [ravel T3 il; ravel T3 ir] = elt h (il ++ ir).
  Proof.
    intros Sh Hl Hr. pose proof (@as_matrix_elt K h 3 il ir) as E. unfold as_matrix in E. rewrite Sh in E.
    apply E; assumption.
  Qed.

  Lemma shift_elt (eigvalsh : tensor -> list K) (h : tensor) o il ir : shape h = T3 ++ T3 -> valid il T3 -> valid ir T3 ->
    shape (shift_ham eigvalsh h o) = T3 ++ T3 /\
    elt (shift_ham eigvalsh h o) (il ++ ir) =
      elt h (il ++ ir) -! (match o with Some c => c | None => amax (eigvalsh (reshape h [8; 8])) end *!
                           (if list_eq_dec Nat.eq_dec il ir then r1 else r0)).
  Proof.
    intros Sh Hl Hr. split; [reflexivity|]. unfold shift_ham. cbv zeta.
    set (c := match o with Some c => c | None => amax (eigvalsh (reshape h [8; 8])) end).
    set (m := Tensor [8; 8] (fun ix => elt (reshape h [8; 8]) ix -! (c *! (if nth 0 ix 0 =? nth 1 ix 0 then r1 else r0)))).
    transitivity (elt m [ravel T3 il; ravel T3 ir]).
    - change [2; 2; 2; 2; 2; 2] with (T3 ++ T3). unfold reshape at 1. cbn [elt]. change (shape m) with [8; 8].
      rewrite (ravel_app T3 ir Hl). change (nprod T3) with 8. rewrite <- (ravel2 8).
      rewrite unravel_ravel; [reflexivity|]. apply valid_pair; [apply (ravel_lt Hl)|apply (ravel_lt Hr)].
    - unfold m. cbn [elt nth]. rewrite mat_elt by assumption. f_equal. f_equal. f_equal.
      destruct (list_eq_dec Nat.eq_dec il ir) as [->|Hne]; [rewrite Nat.eqb_refl; reflexivity|].
      destruct (Nat.eqb_spec (ravel T3 il) (ravel T3 ir)) as [E|_]; [|reflexivity].
      exfalso. apply Hne. rewrite <- (unravel_ravel Hl), <- (unravel_ravel Hr), E. reflexivity.
  Qed.

  (** expectation values *)
  Definition quad (h : tensor) (x : list nat -> K) : K :=
    lsum (idxs T3) (fun il => lsum (idxs T3) (fun ir => cj (x il) *! elt h (il ++ ir) *! x ir)).

  Theorem shift_neg (eigvalsh : tensor -> list K) (h : tensor) (v : nat -> nat -> K) x : shape h = T3 ++ T3 ->
    let w := eigvalsh (reshape h [8; 8]) in
    length w = 8 -> (forall y, In y w -> cj y = y) ->
    (forall i j, i < 8 -> j < 8 -> nsum 8 (fun k => v i k *! nth k w r0 *! cj (v j k)) = elt (reshape h [8; 8]) [i; j]) ->
    (forall i j, i < 8 -> j < 8 -> nsum 8 (fun k => v i k *! cj (v j k)) = if i =? j then r1 else r0) ->
    le (quad (shift_ham eigvalsh h None) x) r0.
  Proof.
    intros Sh w Lw Hw Hd Hc. set (c := amax w).
    assert (Hmax : forall k, k < 8 -> le (nth k w r0) c).
    { intros k Hk. apply amax_ok; [intros E; rewrite E in Lw; discriminate|exact Hw|]. apply nth_In. lia. }
    set (z := fun k => lsum (idxs T3) (fun il => cj (v (ravel T3 il) k) *! x il)).
    assert (E : r0 -! quad (shift_ham eigvalsh h None) x = nsum 8 (fun k => (c -! nth k w r0) *! (cj (z k) *! z k))).
    { unfold quad. transitivity (lsum (idxs T3) (fun il => lsum (idxs T3) (fun ir =>
        nsum 8 (fun k => (c -! nth k w r0) *! ((cj (x il) *! v (ravel T3 il) k) *! (cj (v (ravel T3 ir) k) *! x ir)))))).
      - replace (r0 -! lsum (idxs T3) (fun il => lsum (idxs T3) (fun ir => cj (x il) *! elt (shift_ham eigvalsh h None) (il ++ ir) *! x ir)))
          with (cop (lsum (idxs T3) (fun il => lsum (idxs T3) (fun ir => cj (x il) *! elt (shift_ham eigvalsh h None) (il ++ ir) *! x ir)))) by ring.
        rewrite cop_lsum. apply lsum_ext. intros il Hl. apply In_idxs in Hl. rewrite cop_lsum. apply lsum_ext. intros ir Hr. apply In_idxs in Hr.
        destruct (@shift_elt eigvalsh h None il ir Sh Hl Hr) as [_ ->].
        rewrite <- (mat_elt Sh Hl Hr). fold w. fold c.
        rewrite <- (Hd _ _ (ravel_lt Hl) (ravel_lt Hr)).
        replace (if list_eq_dec Nat.eq_dec il ir then r1 else r0 : K) with
          (nsum 8 (fun k => v (ravel T3 il) k *! cj (v (ravel T3 ir) k)) : K).
        2: { rewrite (Hc _ _ (ravel_lt Hl) (ravel_lt Hr)). destruct (list_eq_dec Nat.eq_dec il ir) as [->|Hne]; [rewrite Nat.eqb_refl; reflexivity|].
             destruct (Nat.eqb_spec (ravel T3 il) (ravel T3 ir)) as [E|_]; [|reflexivity].
             exfalso. apply Hne. rewrite <- (unravel_ravel Hl), <- (unravel_ravel Hr), E. reflexivity. }
        rewrite <- nsum_mul_l, cop_nsum, <- nsum_add, <- nsum_mul_l, <- nsum_mul_r, cop_nsum.
        apply nsum_ext. intros k _. ring.
      - transitivity (nsum 8 (fun k => lsum (idxs T3) (fun il => lsum (idxs T3) (fun ir =>
          (c -! nth k w r0) *! ((cj (x il) *! v (ravel T3 il) k) *! (cj (v (ravel T3 ir) k) *! x ir)))))).
        + transitivity (lsum (idxs T3) (fun il => nsum 8 (fun k => lsum (idxs T3) (fun ir =>
            (c -! nth k w r0) *! ((cj (x il) *! v (ravel T3 il) k) *! (cj (v (ravel T3 ir) k) *! x ir)))))).
          * apply lsum_ext. intros il _. apply lsum_swap.
          * apply lsum_swap.
        + apply nsum_ext. intros k _. unfold z. rewrite cj_lsum, lsum_mul, <- lsum_mul_l.
          apply lsum_ext. intros il _. rewrite <- lsum_mul_l. apply lsum_ext. intros ir _. rewrite cj_mul, cj_inv. ring. }
    unfold le. rewrite E. apply cpos_nsum. intros k Hk. apply cpos_mul; [apply Hmax, Hk|apply cpos_sq].
  Qed.
End Shift.
