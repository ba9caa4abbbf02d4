(** * MpsSplit: the factorisations used by Mps.v: shapes, isometry, product *)
From Coq Require Import List ZArith Lia.
From Verif Require Import Prelude Res Algebra Tensor TensorFacts Ncon BlockSparse Backends DecompFacts Mps MpsSpec.
Import ListNotations.
Set Implicit Arguments.
Unset Strict Implicit.
Local Open Scope nat_scope.
Local Open Scope csr_scope.

Section Split.
  Context {R : cjr} {E : Type}.
  Add Ring Rring : (rsr R).
  Notation tensor := (Tensor.tensor R).
  Variable qrf : tensor -> res (tensor * tensor).
  Variable svdf : tensor -> res (tensor * list R * tensor).
  Variable nkeep : bool -> option nat -> option E -> list R -> nat.
  Hypothesis Hqr : qr_ok qrf.
  Hypothesis Hsvd : svd_ok svdf.

  Definition cols_iso (L : list nat) (k : nat) (u : tensor) : Prop :=
    forall c c', c < k -> c' < k ->
    lsum (idxs L) (fun il => elt u (il ++ [c]) *! cj (elt u (il ++ [c']))) = if c =? c' then r1 else r0.
  Definition rows_iso (k : nat) (Rt : list nat) (v : tensor) : Prop :=
    forall c c', c < k -> c' < k ->
    lsum (idxs Rt) (fun ir => elt v (c :: ir) *! cj (elt v (c' :: ir))) = if c =? c' then r1 else r0.

  Lemma cols_iso_left (t : tensor) l d k : shape t = [l; d; k] -> cols_iso [l; d] k t -> left_iso t.
  Proof.
    intros S H c c' Hc Hc'. rewrite S in *. cbn in *. rewrite <- (H c c' Hc Hc'). rewrite lsum_idxs_cons.
    apply nsum_ext. intros a Ha. rewrite lsum_idxs_cons. apply nsum_ext. intros s Hs. cbn. ring.
  Qed.
  Lemma rows_iso_right (t : tensor) k d r : shape t = [k; d; r] -> rows_iso k [d; r] t -> right_iso t.
  Proof.
    intros S H c c' Hc Hc'. rewrite S in *. cbn in *. rewrite <- (H c c' Hc Hc'). rewrite lsum_idxs_cons.
    apply nsum_ext. intros a Ha. rewrite lsum_idxs_cons. apply nsum_ext. intros s Hs. cbn. ring.
  Qed.

  Lemma as_matrix_rows (t : tensor) p : rows (as_matrix t p) = nprod (firstn p (shape t)).
  Proof. reflexivity. Qed.
  Lemma as_matrix_cols (t : tensor) p : cols (as_matrix t p) = nprod (skipn p (shape t)).
  Proof. reflexivity. Qed.

  Lemma reshape_cols_iso (q : tensor) L k : shape q = [nprod L; k] -> orthonormal_cols q (nprod L) k ->
    cols_iso L k (reshape q (L ++ [k])).
  Proof.
    intros S H c c' Hc Hc'. rewrite <- (H c c' Hc Hc'). rewrite <- nsum_ravel. apply lsum_ext. intros il Hil.
    apply In_idxs in Hil. rewrite !(@left_factor R q L (nprod L) k); auto.
  Qed.
  Lemma reshape_rows_iso (v : tensor) k Rt : shape v = [k; nprod Rt] -> orthonormal_rows v k (nprod Rt) ->
    rows_iso k Rt (reshape v (k :: Rt)).
  Proof.
    intros S H c c' Hc Hc'. rewrite <- (H c c' Hc Hc'). rewrite <- nsum_ravel. apply lsum_ext. intros il Hil.
    apply In_idxs in Hil. rewrite !(@right_factor R v Rt (nprod Rt) k); auto.
  Qed.

  Lemma qr_at_spec (t q r : tensor) L Rt p : shape t = L ++ Rt -> length L = p -> qr_at qrf t p = Ok (q, r) ->
    let k := Nat.min (nprod L) (nprod Rt) in
    shape q = L ++ [k] /\ shape r = k :: Rt /\ cols_iso L k q /\
    forall il ir, valid il L -> valid ir Rt -> nsum k (fun j => elt q (il ++ [j]) *! elt r (j :: ir)) = elt t (il ++ ir).
  Proof.
    intros S HL H k. unfold qr_at in H. destruct (qrf (as_matrix t p)) as [[q0 r0']| |] eqn:F; try discriminate. cbn in H.
    assert (firstn p (shape t) = L) as EL by (rewrite S, <- HL, firstn_app, firstn_all, Nat.sub_diag; cbn; apply app_nil_r).
    assert (skipn p (shape t) = Rt) as ER by (rewrite S, <- HL, skipn_app, skipn_all, Nat.sub_diag; reflexivity).
    assert (length (shape (as_matrix t p)) = 2) as M2 by reflexivity.
    destruct (Hqr M2 F) as [Q O]. rewrite as_matrix_rows, as_matrix_cols, EL, ER in O.
    pose proof (@qr_general R true (fun x => x) (fun _ => (q0, r0')) t p false q0 r0' eq_refl Q) as G. cbv zeta in G.
    rewrite EL, ER in G. injection H as H1 H2.
    pose proof Q as (Q1 & Q2 & Q3). rewrite as_matrix_rows, as_matrix_cols, EL, ER in Q1, Q2. fold k in Q1, Q2, O.
    rewrite Q1 in H1, H2. cbn [nth] in H1, H2. rewrite EL in H1. rewrite ER in H2.
    replace (fst _) with q in G.
    2: { cbn -[reshape]. rewrite Q1. cbn [nth]. rewrite EL. symmetry. exact H1. }
    replace (snd _) with r in G.
    2: { cbn -[reshape]. rewrite Q1. cbn [nth]. rewrite ER. symmetry. exact H2. }
    destruct G as (G1 & G2 & G3). split; [exact G1|]. split; [exact G2|]. split.
    - rewrite <- H1. apply reshape_cols_iso; assumption.
    - intros il ir Vl Vr. pose proof (G3 il ir Vl Vr) as P. unfold bond_product in P. fold k in P. rewrite P.
      rewrite <- EL in Vl. rewrite <- ER in Vr. rewrite <- (as_matrix_elt Vl Vr).
      rewrite <- (Q3 (ravel (firstn p (shape t)) il) (ravel (skipn p (shape t)) ir)).
      + rewrite as_matrix_rows, as_matrix_cols, EL, ER. apply nsum_ext. intros j Hj. ring.
      + apply ravel_lt, Vl.
      + apply ravel_lt, Vr.
  Qed.

  Lemma rq_at_spec (t q r : tensor) L Rt p : shape t = L ++ Rt -> length L = p -> rq_at qrf t p = Ok (r, q) ->
    let k := Nat.min (nprod Rt) (nprod L) in
    shape r = L ++ [k] /\ shape q = k :: Rt /\ rows_iso k Rt q /\
    forall il ir, valid il L -> valid ir Rt -> nsum k (fun j => elt r (il ++ [j]) *! elt q (j :: ir)) = elt t (il ++ ir).
  Proof.
    intros S HL H k. unfold rq_at in H. destruct (qrf (adjoint (as_matrix t p))) as [[q0 r0']| |] eqn:F; try discriminate. cbn -[adjoint] in H.
    assert (firstn p (shape t) = L) as EL by (rewrite S, <- HL, firstn_app, firstn_all, Nat.sub_diag; cbn; apply app_nil_r).
    assert (skipn p (shape t) = Rt) as ER by (rewrite S, <- HL, skipn_app, skipn_all, Nat.sub_diag; reflexivity).
    assert (length (shape (adjoint (as_matrix t p))) = 2) as M2 by reflexivity.
    assert (rows (adjoint (as_matrix t p)) = nprod Rt) as ER' by (rewrite <- ER; reflexivity).
    assert (cols (adjoint (as_matrix t p)) = nprod L) as EC' by (rewrite <- EL; reflexivity).
    destruct (Hqr M2 F) as [Q O]. rewrite ER', EC' in O.
    pose proof (@rq_general R true (fun x => x) (fun _ => (q0, r0')) t p false q0 r0' eq_refl Q) as G. cbv zeta in G.
    rewrite EL, ER in G. injection H as H1 H2.
    pose proof Q as (Q1 & Q2 & Q3). rewrite ER', EC' in Q1, Q2, Q3. fold k in Q1, Q2, Q3, O.
    replace (fst _) with r in G.
    replace (snd _) with q in G.
    destruct G as (G1 & G2 & G3). split; [exact G1|]. split; [exact G2|].
    assert (shape (adjoint q0) = [k; nprod Rt]) as SA by (unfold adjoint; cbn; rewrite Q1; reflexivity).
    split.
    - rewrite <- H2. rewrite ER. cbn. rewrite Q2. cbn [rev nth app].
      apply reshape_rows_iso; [exact SA|].
      intros c c' Hc Hc'. rewrite Nat.eqb_sym. rewrite <- (O c' c Hc' Hc). apply nsum_ext. intros i Hi. rewrite !adjoint_elt, cj_inv.
      ring.
    - intros il ir Vl Vr. pose proof (G3 il ir Vl Vr) as P. unfold bond_product in P. fold k in P. rewrite P.
      rewrite <- EL in Vl. rewrite <- ER in Vr. rewrite <- (as_matrix_elt Vl Vr).
      match goal with |- _ = ?x => rewrite <- (@cj_inv R x) end. f_equal. rewrite <- adjoint_elt.
      rewrite <- (Q3 (ravel (skipn p (shape t)) ir) (ravel (firstn p (shape t)) il)).
      + rewrite EL, ER. apply nsum_ext. intros j Hj. ring.
      + rewrite <- ER. apply ravel_lt, Vr.
      + rewrite <- EL. apply ravel_lt, Vl.
  Qed.

  Lemma svd_at_spec (t u v : tensor) s tw rel D err L Rt p : shape t = L ++ Rt -> length L = p ->
    svd_at svdf nkeep rel D err t p = Ok (u, s, v, tw) ->
    let k := length s in
    shape u = L ++ [k] /\ shape v = k :: Rt /\ cols_iso L k u /\ rows_iso k Rt v /\
    ((forall x, In x tw -> x = r0) -> forall il ir, valid il L -> valid ir Rt ->
       nsum k (fun j => elt u (il ++ [j]) *! nth j s r0 *! elt v (j :: ir)) = elt t (il ++ ir)).
  Proof.
    intros S HL H k. unfold svd_at in H. destruct (svdf (as_matrix t p)) as [[[u0 s0] v0]| |] eqn:F; try discriminate. cbn -[svd] in H.
    assert (firstn p (shape t) = L) as EL by (rewrite S, <- HL, firstn_app, firstn_all, Nat.sub_diag; cbn; apply app_nil_r).
    assert (skipn p (shape t) = Rt) as ER by (rewrite S, <- HL, skipn_app, skipn_all, Nat.sub_diag; reflexivity).
    assert (length (shape (as_matrix t p)) = 2) as M2 by reflexivity.
    destruct (Hsvd M2 F) as (Q & OU & OV). rewrite as_matrix_rows, EL in OU. rewrite as_matrix_cols, ER in OV.
    pose proof (@svd_general R (fun _ => (u0, s0, v0)) (nkeep rel D err) t p u0 s0 v0 eq_refl Q) as G. cbv zeta in G.
    pose proof (@svd_product R (fun _ => (u0, s0, v0)) (nkeep rel D err) t p u0 s0 v0 eq_refl Q) as G'. cbv zeta in G'.
    match type of H with Ok ?x = Ok ?y => assert (x = y) as H0 by congruence end. clear H. rename H0 into H.
    rewrite H in G, G'. rewrite EL, ER in G, G'. destruct G as (G1 & G2 & G3 & G4 & _).
    rewrite <- G3 in G1, G2. fold k in G1, G2.
    pose proof Q as (Q1 & Q2 & Q3 & _). rewrite as_matrix_rows, as_matrix_cols, EL, ER in Q1, Q2, Q3.
    assert (k <= length s0) as Lk by (unfold k; rewrite G3; lia).
    cbn in H. injection H as E1 E2 E3 E4.
    assert (length (firstn (nkeep rel D err s0) s0) = k) as EK by (rewrite E2; reflexivity).
    rewrite EK, EL, Q1 in E1. cbn [nth] in E1. rewrite EK, ER, Q3 in E3. cbn [nth] in E3.
    split; [exact G1|]. split; [exact G2|]. split; [|split].
    - rewrite <- E1. apply reshape_cols_iso; [reflexivity|]. intros c c' Hc Hc'. cbn. apply OU; lia.
    - rewrite <- E3. apply reshape_rows_iso; [reflexivity|]. intros c c' Hc Hc'. cbn. apply OV; lia.
    - intros Z il ir Vl Vr. apply G'; assumption.
  Qed.
End Split.
