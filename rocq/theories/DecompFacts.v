From Verif Require Import Prelude Res Algebra Tensor TensorFacts ListFacts Backends BackendSpec BackendFacts.
Set Implicit Arguments.
Unset Strict Implicit.

(** ** Contracts of the library routines *)
Section Contracts.
  Context {R : cjr}.
  Definition rows (m : tensor R) : nat := nth 0 (shape m) 0.
  Definition cols (m : tensor R) : nat := nth 1 (shape m) 0.
  (** [q] and [r] are matrices with [q r = m]; the inner dimension is min(rows, cols) *)
  Definition is_qr (m q r : tensor R) : Prop :=
    shape q = [rows m; Nat.min (rows m) (cols m)] /\ shape r = [Nat.min (rows m) (cols m); cols m] /\
    forall i j, i < rows m -> j < cols m ->
      nsum (Nat.min (rows m) (cols m)) (fun l => elt q [i; l] *! elt r [l; j]) = elt m [i; j].
  (** [u diag(s) vh = m] *)
  Definition is_svd (m u : tensor R) (s : list R) (vh : tensor R) : Prop :=
    shape u = [rows m; Nat.min (rows m) (cols m)] /\ length s = Nat.min (rows m) (cols m) /\
    shape vh = [Nat.min (rows m) (cols m); cols m] /\
    forall i j, i < rows m -> j < cols m ->
      nsum (length s) (fun l => elt u [i; l] *! nth l s r0 *! elt vh [l; j]) = elt m [i; j].
  (** [np.sign]: a unit for nonzero numbers, zero at zero *)
  Definition is_sign (sign : R -> R) : Prop :=
    sign r0 = r0 /\ forall x, x <> r0 -> sign x *! cj (sign x) = r1.
End Contracts.

Section Facts.
  Context {R : cjr}.
  Add Ring Rring : (rsr R).

  Lemma as_matrix_elt (t : tensor R) p il ir :
    valid il (firstn p (shape t)) -> valid ir (skipn p (shape t)) ->
    elt (as_matrix t p) [ravel (firstn p (shape t)) il; ravel (skipn p (shape t)) ir] = elt t (il ++ ir).
  Proof.
    intros Hl Hr. unfold as_matrix, reshape. cbn [elt shape]. rewrite ravel2.
    rewrite <- (ravel_app (skipn p (shape t)) ir Hl), firstn_skipn.
    rewrite unravel_ravel; [reflexivity|]. rewrite <- (firstn_skipn p (shape t)). apply valid_app; assumption.
  Qed.

  (** reshaping the two factors back *)
  Lemma left_factor (q : tensor R) L m k il j :
    shape q = [m; k] -> m = nprod L -> valid il L -> j < k ->
    elt (reshape q (L ++ [k])) (il ++ [j]) = elt q [ravel L il; j].
  Proof.
    intros Sq Hm Hl Hj. unfold reshape. cbn [elt]. rewrite Sq, ravel_app by exact Hl.
    change (nprod [k]) with (k * 1). change (ravel [k] [j]) with (j * 1 + 0).
    replace (ravel L il * (k * 1) + (j * 1 + 0)) with (ravel [m; k] [ravel L il; j]) by (rewrite ravel2; lia).
    rewrite unravel_ravel; [reflexivity|]. apply valid_pair; [subst m; apply ravel_lt; exact Hl | exact Hj].
  Qed.
  Lemma right_factor (r : tensor R) Rt n k ir j :
    shape r = [k; n] -> n = nprod Rt -> valid ir Rt -> j < k ->
    elt (reshape r (k :: Rt)) (j :: ir) = elt r [j; ravel Rt ir].
  Proof.
    intros Sr Hn Hr Hj. unfold reshape. cbn [elt ravel]. rewrite Sr, <- Hn.
    rewrite <- (ravel2 k). rewrite unravel_ravel; [reflexivity|].
    apply valid_pair; [exact Hj | subst n; apply ravel_lt; exact Hr].
  Qed.

  (** the product of two factors of a tensor: sum over the new bond *)
  Definition bond_product (k : nat) (a b : tensor R) (il ir : list nat) : R :=
    nsum k (fun j => elt a (il ++ [j]) *! elt b (j :: ir)).

  Lemma qr_general c sign qrf (t : tensor R) p nn q0 r0' :
    qrf (as_matrix t p) = (q0, r0') -> is_qr (as_matrix t p) q0 r0' ->
    let L := firstn p (shape t) in let Rt := skipn p (shape t) in
    let k := Nat.min (nprod L) (nprod Rt) in
    let w j := if nn : bool then sign (elt r0' [j; j]) *! (if c : bool then cj (sign (elt r0' [j; j])) else sign (elt r0' [j; j])) else r1 in
    shape (fst (qr c sign qrf t p nn)) = L ++ [k] /\ shape (snd (qr c sign qrf t p nn)) = k :: Rt /\
    forall il ir, valid il L -> valid ir Rt ->
      bond_product k (fst (qr c sign qrf t p nn)) (snd (qr c sign qrf t p nn)) il ir =
      nsum k (fun j => w j *! (elt q0 [ravel L il; j] *! elt r0' [j; ravel Rt ir])).
  Proof.
    intros Eq Hqr L Rt k w. unfold qr. rewrite Eq.
    destruct Hqr as (Sq & Sr & Hp). unfold rows, cols in *. cbn [shape as_matrix reshape nth] in Sq, Sr, Hp.
    fold L Rt k in Sq, Sr, Hp.
    set (qr' := if nn then fix_phases c sign q0 r0' else (q0, r0')).
    assert (shape (fst qr') = [nprod L; k] /\ shape (snd qr') = [k; nprod Rt]) as [S1 S2].
    { unfold qr'. destruct nn; cbn; auto. }
    destruct qr' as [q r] eqn:E. cbn [fst snd] in *. rewrite S1. cbn [nth].
    repeat split. intros il ir Hl Hr. unfold bond_product. apply nsum_ext. intros j Hj. cbn [fst snd]; try (fold L Rt).
    rewrite (left_factor S1 eq_refl Hl Hj), (right_factor S2 eq_refl Hr Hj).
    unfold w. destruct nn; unfold qr' in E.
    - injection E as <- <-. unfold fix_phases, scale_cols, scale_rows. cbn [fst snd elt nth].
      destruct c; ring.
    - injection E as <- <-. ring.
  Qed.

  (** without phase fixing, or when all diagonal entries of [r] are nonzero, the product is the input *)
  Lemma qr_product sign qrf (t : tensor R) p nn q0 r0' :
    qrf (as_matrix t p) = (q0, r0') -> is_qr (as_matrix t p) q0 r0' -> is_sign sign ->
    let L := firstn p (shape t) in let Rt := skipn p (shape t) in
    let k := Nat.min (nprod L) (nprod Rt) in
    (nn = true -> forall j, j < k -> elt r0' [j; j] <> r0) ->
    forall il ir, valid il L -> valid ir Rt ->
      bond_product k (fst (qr true sign qrf t p nn)) (snd (qr true sign qrf t p nn)) il ir = elt t (il ++ ir).
  Proof.
    intros Eq Hqr [_ Hs] L Rt k Hnz il ir Hl Hr.
    destruct (qr_general true sign nn Eq Hqr) as (_ & _ & H). rewrite H by assumption. clear H.
    destruct Hqr as (Sq & Sr & Hp). unfold rows, cols in *. cbn [shape as_matrix reshape nth] in Sq, Sr, Hp.
    rewrite <- (as_matrix_elt Hl Hr). rewrite <- Hp by (apply ravel_lt; assumption).
    apply nsum_ext. intros j Hj. destruct nn; [rewrite Hs by (apply Hnz; auto)|]; ring.
  Qed.

  (** exactly the columns with zero diagonal entry are lost *)
  Lemma qr_product_exact sign qrf (t : tensor R) p q0 r0' (dec : forall x y : R, {x = y} + {x <> y}) :
    qrf (as_matrix t p) = (q0, r0') -> is_qr (as_matrix t p) q0 r0' -> is_sign sign ->
    let L := firstn p (shape t) in let Rt := skipn p (shape t) in
    let k := Nat.min (nprod L) (nprod Rt) in
    forall il ir, valid il L -> valid ir Rt ->
      bond_product k (fst (qr true sign qrf t p true)) (snd (qr true sign qrf t p true)) il ir =
      nsum k (fun j => if dec (elt r0' [j; j]) r0 then r0 else elt q0 [ravel L il; j] *! elt r0' [j; ravel Rt ir]).
  Proof.
    intros Eq Hqr [H0 Hs] L Rt k il ir Hl Hr.
    destruct (qr_general true sign true Eq Hqr) as (_ & _ & H). rewrite H by assumption. clear H.
    apply nsum_ext. intros j Hj. destruct (dec _ _) as [E|E]; [rewrite E, H0|rewrite Hs by exact E]; fold L Rt; ring.
  Qed.

  Lemma adjoint_elt (m : tensor R) i j : elt (adjoint m) [i; j] = cj (elt m [j; i]).
  Proof. reflexivity. Qed.

  Lemma rq_general c sign qrf (t : tensor R) p nn q0 r0' :
    qrf (adjoint (as_matrix t p)) = (q0, r0') -> is_qr (adjoint (as_matrix t p)) q0 r0' ->
    let L := firstn p (shape t) in let Rt := skipn p (shape t) in
    let k := Nat.min (nprod Rt) (nprod L) in
    let w j := if nn : bool then sign (elt r0' [j; j]) *! (if c : bool then cj (sign (elt r0' [j; j])) else sign (elt r0' [j; j])) else r1 in
    shape (fst (rq c sign qrf t p nn)) = L ++ [k] /\ shape (snd (rq c sign qrf t p nn)) = k :: Rt /\
    forall il ir, valid il L -> valid ir Rt ->
      bond_product k (fst (rq c sign qrf t p nn)) (snd (rq c sign qrf t p nn)) il ir =
      cj (nsum k (fun j => w j *! (elt q0 [ravel Rt ir; j] *! elt r0' [j; ravel L il]))).
  Proof.
    intros Eq Hqr L Rt k w. unfold rq. rewrite Eq.
    destruct Hqr as (Sq & Sr & Hp). unfold rows, cols in *. cbn [shape as_matrix adjoint reshape nth rev app] in Sq, Sr, Hp.
    fold L Rt k in Sq, Sr, Hp.
    set (qr' := if nn then fix_phases c sign q0 r0' else (q0, r0')).
    assert (shape (fst qr') = [nprod Rt; k] /\ shape (snd qr') = [k; nprod L]) as [S1 S2].
    { unfold qr'. destruct nn; cbn; auto. }
    destruct qr' as [q r] eqn:E. cbn [fst snd] in *.
    assert (shape (adjoint r) = [nprod L; k]) as T1 by (unfold adjoint; cbn [shape]; rewrite S2; reflexivity).
    assert (shape (adjoint q) = [k; nprod Rt]) as T2 by (unfold adjoint; cbn [shape]; rewrite S1; reflexivity).
    rewrite T1. cbn [nth].
    repeat split. intros il ir Hl Hr. unfold bond_product. rewrite cj_nsum. apply nsum_ext. intros j Hj. cbn [fst snd]; try (fold L Rt).
    rewrite (left_factor T1 eq_refl Hl Hj), (right_factor T2 eq_refl Hr Hj).
    rewrite !adjoint_elt, <- cj_mul. f_equal.
    unfold w. destruct nn; unfold qr' in E.
    - injection E as <- <-. unfold fix_phases, scale_cols, scale_rows. cbn [fst snd elt nth].
      destruct c; ring.
    - injection E as <- <-. ring.
  Qed.

  Lemma rq_product sign qrf (t : tensor R) p nn q0 r0' :
    qrf (adjoint (as_matrix t p)) = (q0, r0') -> is_qr (adjoint (as_matrix t p)) q0 r0' -> is_sign sign ->
    let L := firstn p (shape t) in let Rt := skipn p (shape t) in
    let k := Nat.min (nprod Rt) (nprod L) in
    (nn = true -> forall j, j < k -> elt r0' [j; j] <> r0) ->
    forall il ir, valid il L -> valid ir Rt ->
      bond_product k (fst (rq true sign qrf t p nn)) (snd (rq true sign qrf t p nn)) il ir = elt t (il ++ ir).
  Proof.
    intros Eq Hqr [_ Hs] L Rt k Hnz il ir Hl Hr.
    destruct (rq_general true sign nn Eq Hqr) as (_ & _ & H). rewrite H by assumption. clear H.
    destruct Hqr as (Sq & Sr & Hp). unfold rows, cols in *. cbn [shape as_matrix adjoint reshape nth rev app] in Sq, Sr, Hp.
    rewrite <- (cj_inv _ (elt t (il ++ ir))). rewrite <- (as_matrix_elt Hl Hr). rewrite <- adjoint_elt.
    rewrite <- Hp by (apply ravel_lt; assumption). f_equal.
    apply nsum_ext. intros j Hj. destruct nn; [rewrite Hs by (apply Hnz; auto)|]; ring.
  Qed.

  (** the diagonal after phase fixing is conj(sign d) d *)
  Lemma qr_diagonal sign q r' j :
    elt (snd (fix_phases (R := R) true sign q r')) [j; j] = cj (sign (elt r' [j; j])) *! elt r' [j; j].
  Proof. reflexivity. Qed.

  (** ** SVD *)
  Lemma svd_general svdf nkeep (t : tensor R) p u0 s0 v0 :
    svdf (as_matrix t p) = (u0, s0, v0) -> is_svd (as_matrix t p) u0 s0 v0 ->
    let L := firstn p (shape t) in let Rt := skipn p (shape t) in
    let '(u, s, vh, rest) := svd svdf nkeep t p in
    let k := Nat.min (nkeep s0) (length s0) in
    shape u = L ++ [k] /\ shape vh = k :: Rt /\ length s = k /\ s ++ rest = s0 /\
    forall il ir, valid il L -> valid ir Rt ->
      nsum k (fun j => elt u (il ++ [j]) *! nth j s r0 *! elt vh (j :: ir)) =
      nsum k (fun j => elt u0 [ravel L il; j] *! nth j s0 r0 *! elt v0 [j; ravel Rt ir]).
  Proof.
    intros Eq (Su & Ss & Sv & Hp) L Rt. unfold svd. rewrite Eq. cbv zeta.
    unfold rows, cols in *. cbn [shape as_matrix reshape nth] in Su, Ss, Sv, Hp. fold L Rt in Su, Ss, Sv, Hp.
    rewrite firstn_length. set (k := Nat.min (nkeep s0) (length s0)).
    rewrite Su, Sv. cbn [nth]. repeat split; [apply firstn_skipn|].
    intros il ir Hl Hr. apply nsum_ext. intros j Hj. cbn [fst snd]; try (fold L Rt).
    rewrite (@left_factor (Tensor [nprod L; k] (elt u0)) L (nprod L) k il j eq_refl eq_refl Hl Hj).
    rewrite (@right_factor (Tensor [k; nprod Rt] (elt v0)) Rt (nprod Rt) k ir j eq_refl eq_refl Hr Hj). cbn [elt].
    f_equal. f_equal. transitivity (nth j (firstn (nkeep s0) s0 ++ skipn (nkeep s0) s0) r0).
    - rewrite app_nth1; [reflexivity|]. rewrite firstn_length. exact Hj.
    - rewrite firstn_skipn. reflexivity.
  Qed.

  Lemma nsum_split n m (f : nat -> R) : m <= n -> nsum n f = nsum m f +! lsum (seq m (n - m)) f.
  Proof.
    intros H. unfold nsum. replace n with (m + (n - m)) at 1 by lia. rewrite seq_app, lsum_app. reflexivity.
  Qed.

  Lemma svd_product svdf nkeep (t : tensor R) p u0 s0 v0 :
    svdf (as_matrix t p) = (u0, s0, v0) -> is_svd (as_matrix t p) u0 s0 v0 ->
    let L := firstn p (shape t) in let Rt := skipn p (shape t) in
    let '(u, s, vh, rest) := svd svdf nkeep t p in
    (forall x, In x rest -> x = r0) ->
    forall il ir, valid il L -> valid ir Rt ->
      nsum (length s) (fun j => elt u (il ++ [j]) *! nth j s r0 *! elt vh (j :: ir)) = elt t (il ++ ir).
  Proof.
    intros Eq Hs L Rt. pose proof (svd_general nkeep Eq Hs) as G. cbv zeta in G. fold L Rt in G.
    destruct (svd svdf nkeep t p) as [[[u s] vh] rest]. destruct G as (_ & _ & Ls & Ea & G).
    intros Hz il ir Hl Hr. rewrite Ls, G by assumption.
    destruct Hs as (Su & Ss & Sv & Hp). unfold rows, cols in *. cbn [shape as_matrix reshape nth] in Su, Ss, Sv, Hp.
    rewrite <- (as_matrix_elt Hl Hr). rewrite <- Hp by (apply ravel_lt; assumption).
    rewrite (@nsum_split (length s0) (Nat.min (nkeep s0) (length s0))) by lia.
    rewrite (lsum_zero (seq _ _)); [fold L Rt; ring|]. intros j Hj. apply in_seq in Hj.
    rewrite (Hz (nth j s0 r0)); [ring|].
    assert (length s + length rest = length s0) as Hlen by (rewrite <- Ea, app_length; reflexivity).
    rewrite <- Ea, app_nth2 by lia. apply nth_In. lia.
  Qed.

  (** ** What truncation discards *)
  Definition orthonormal_cols (u : tensor R) (m k : nat) : Prop :=
    forall l l', l < k -> l' < k -> nsum m (fun i => elt u [i; l] *! cj (elt u [i; l'])) = if l =? l' then r1 else r0.
  Definition orthonormal_rows (v : tensor R) (k n : nat) : Prop :=
    forall l l', l < k -> l' < k -> nsum n (fun j => elt v [l; j] *! cj (elt v [l'; j])) = if l =? l' then r1 else r0.

  Lemma lsum_seq_nsum k n (f : nat -> R) : lsum (seq k n) f = nsum n (fun i => f (k + i)).
  Proof.
    induction n; [reflexivity|]. rewrite nsum_S, <- IHn, seq_S, lsum_app, lsum_cons, lsum_nil. ring.
  Qed.

  (** Frobenius norm of a sum of orthonormal dyads *)
  Lemma dyads_norm (u v : tensor R) (s : list R) m k n (ls : list nat) :
    orthonormal_cols u m k -> orthonormal_rows v k n -> NoDup ls -> (forall l, In l ls -> l < k) ->
    nsum m (fun i => nsum n (fun j =>
      lsum ls (fun l => elt u [i; l] *! nth l s r0 *! elt v [l; j]) *!
      cj (lsum ls (fun l => elt u [i; l] *! nth l s r0 *! elt v [l; j])))) =
    lsum ls (fun l => nth l s r0 *! cj (nth l s r0)).
  Proof.
    intros Hu Hv HN Hl.
    transitivity (lsum ls (fun l => lsum ls (fun l' =>
      nth l s r0 *! cj (nth l' s r0) *!
      nsum m (fun i => elt u [i; l] *! cj (elt u [i; l'])) *! nsum n (fun j => elt v [l; j] *! cj (elt v [l'; j]))))).
    - transitivity (nsum m (fun i => nsum n (fun j => lsum ls (fun l => lsum ls (fun l' =>
        (nth l s r0 *! cj (nth l' s r0)) *! ((elt u [i; l] *! cj (elt u [i; l'])) *! (elt v [l; j] *! cj (elt v [l'; j])))))))).
      + apply nsum_ext. intros i Hi. apply nsum_ext. intros j Hj. rewrite cj_lsum, lsum_mul.
        apply lsum_ext. intros l _. apply lsum_ext. intros l' _. rewrite !cj_mul. ring.
      + transitivity (nsum m (fun i => lsum ls (fun l => lsum ls (fun l' => nsum n (fun j =>
          (nth l s r0 *! cj (nth l' s r0)) *! ((elt u [i; l] *! cj (elt u [i; l'])) *! (elt v [l; j] *! cj (elt v [l'; j])))))))).
        { apply nsum_ext. intros i Hi. unfold nsum. rewrite lsum_swap. apply lsum_ext. intros l _. apply lsum_swap. }
        unfold nsum at 1. rewrite lsum_swap. apply lsum_ext. intros l _. rewrite lsum_swap. apply lsum_ext. intros l' _.
        rewrite <- (nsum_mul_l m (nth l s r0 *! cj (nth l' s r0))), <- (nsum_mul_r m (nsum n _)).
        apply lsum_ext. intros i _. rewrite !nsum_mul_l. ring.
    - apply lsum_ext. intros l Hl1. rewrite (@lsum_single _ _ _ _ l HN Hl1).
      + rewrite Hu, Hv by (apply Hl; assumption). rewrite Nat.eqb_refl. ring.
      + intros l' Hl2 Hne. rewrite Hu, Hv by (apply Hl; assumption).
        replace (l =? l') with false by (symmetry; apply Nat.eqb_neq; congruence). ring.
  Qed.

  Lemma nsum_ravel (s : list nat) (f : nat -> R) : lsum (idxs s) (fun ix => f (ravel s ix)) = nsum (nprod s) f.
  Proof.
    rewrite <- (nsum_unravel s (fun ix => f (ravel s ix))). apply nsum_ext. intros k Hk. rewrite ravel_unravel by exact Hk. reflexivity.
  Qed.

  (** the input is what [svd] returns plus a remainder whose squared norm is the squared norm of the
      discarded singular values *)
  Lemma svd_remainder svdf nkeep (t : tensor R) p u0 s0 v0 :
    svdf (as_matrix t p) = (u0, s0, v0) -> is_svd (as_matrix t p) u0 s0 v0 ->
    let L := firstn p (shape t) in let Rt := skipn p (shape t) in
    orthonormal_cols u0 (nprod L) (length s0) -> orthonormal_rows v0 (length s0) (nprod Rt) ->
    let '(u, s, vh, rest) := svd svdf nkeep t p in
    exists E : list nat -> list nat -> R,
      (forall il ir, valid il L -> valid ir Rt ->
         elt t (il ++ ir) = nsum (length s) (fun j => elt u (il ++ [j]) *! nth j s r0 *! elt vh (j :: ir)) +! E il ir) /\
      lsum (idxs L) (fun il => lsum (idxs Rt) (fun ir => E il ir *! cj (E il ir))) = lsum rest (fun x => x *! cj x).
  Proof.
    intros Eq Hs L Rt Hu Hv. pose proof (svd_general nkeep Eq Hs) as G. cbv zeta in G. fold L Rt in G.
    destruct (svd svdf nkeep t p) as [[[u s] vh] rest]. destruct G as (_ & _ & Ls & Ea & G).
    destruct Hs as (Su & Ss & Sv & Hp). unfold rows, cols in *. cbn [shape as_matrix reshape nth] in Su, Ss, Sv, Hp.
    fold L Rt in Su, Ss, Sv, Hp. set (k := Nat.min (nkeep s0) (length s0)) in *.
    assert (length s + length rest = length s0) as Hlen by (rewrite <- Ea, app_length; reflexivity).
    set (ls := seq k (length s0 - k)).
    exists (fun il ir => lsum ls (fun l => elt u0 [ravel L il; l] *! nth l s0 r0 *! elt v0 [l; ravel Rt ir])). split.
    - intros il ir Hl Hr. rewrite Ls, G by assumption. rewrite <- (as_matrix_elt Hl Hr). fold L Rt.
      rewrite <- Hp by (apply ravel_lt; assumption). rewrite (@nsum_split (length s0) k) by lia. reflexivity.
    - transitivity (lsum ls (fun l => nth l s0 r0 *! cj (nth l s0 r0))).
      + rewrite <- (@dyads_norm u0 v0 s0 (nprod L) (length s0) (nprod Rt) ls Hu Hv).
        * rewrite <- (nsum_ravel L). apply lsum_ext. intros il _.
          rewrite <- (nsum_ravel Rt (fun j => lsum ls (fun l => elt u0 [ravel L il; l] *! nth l s0 r0 *! elt v0 [l; j]) *!
             cj (lsum ls (fun l => elt u0 [ravel L il; l] *! nth l s0 r0 *! elt v0 [l; j])))). reflexivity.
        * apply seq_NoDup.
        * intros l Hl. apply in_seq in Hl. lia.
      + unfold ls. rewrite lsum_seq_nsum. rewrite <- Ea.
        replace (length (s ++ rest) - k) with (length rest) by (rewrite app_length; lia).
        assert (forall (l : list R) (f : R -> R), nsum (length l) (fun i => f (nth i l r0)) = lsum l f) as En.
        { intros l f. transitivity (lsum (gather r0 l (seq 0 (length l))) f); [|rewrite gather_seq; reflexivity].
          unfold gather. rewrite lsum_map. reflexivity. }
        rewrite <- (En rest). apply nsum_ext. intros i Hi. rewrite app_nth2 by lia.
        replace (k + i - length s) with i by lia. reflexivity.
  Qed.
End Facts.
