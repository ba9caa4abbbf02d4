(** * GmresSolve: the calls of GMRES *)
From Coq Require Import Field.
From Verif Require Import Prelude Algebra Krylov KrylovFacts KrylovSpec Gmres GmresSpec GmresFacts GmresStep GmresMain KrylovInst GmresTotal.
Set Implicit Arguments.
Unset Strict Implicit.

Section Solve.
  Context {K : cfd} {V : ips K}.
  Add Field Kf : (cfth K).
  Variable A : V -> V.
  Hypothesis Hlin : linear A.
  Hypothesis Hr : forall a : K, cj a = a.

  Lemma krylov_nth (r : V) k i : i < k -> nth i (krylov A r k) vz = Nat.iter i A r.
  Proof.
    intros Hi. unfold krylov. rewrite (nth_indep _ vz (Nat.iter 0 A r)) by (rewrite map_length, seq_length; exact Hi).
    rewrite (map_nth (fun i => Nat.iter i A r)), seq_nth by exact Hi. reflexivity.
  Qed.
  Lemma in_krylov (r : V) k x : in_span (krylov A r k) x <-> spanf k (fun i => Nat.iter i A r) x.
  Proof.
    assert (L : length (krylov A r k) = k) by (unfold krylov; rewrite map_length, seq_length; reflexivity).
    unfold in_span, lin, spanf. rewrite L.
    split; intros [d ->]; exists d; apply vsum_ext; intros i Hi; rewrite krylov_nth by exact Hi; reflexivity.
  Qed.

  Lemma invariant_stop n_kry r q c bt m : ginv A n_kry r q c bt -> m <= q -> in_span (krylov A r m) (Nat.iter m A r) ->
    q = m /\ bt = r0.
  Proof.
    intros G Hm Hin. apply in_krylov in Hin.
    assert (Hv : spanf m (vat c) (vat c m)).
    { assert (H1 : spanf m (fun i => Nat.iter i A r) (vat c m)).
      { destruct (gi_s1 G Hm) as [d ->]. apply spanf_vsum. intros i Hi. apply spanf_vs.
        destruct (Nat.eq_dec i m) as [->|N]; [exact Hin|]. exact (@spanf_in K V m (fun i => Nat.iter i A r) i ltac:(lia)). }
      apply (spanf_trans H1). intros i Hi. apply (@spanf_le K V (S i)); [lia|]. apply (gi_s2 G). lia. }
    assert (No : (forall i, i <= m -> ip (vat c m) (vat c i) = delta_ m i) -> False).
    { intros Ho. apply (@one_neq0 K). assert (E : ip (vat c m) (vat c m) = r1) by (rewrite Ho by lia; unfold delta_; rewrite Nat.eqb_refl; reflexivity).
      rewrite <- E. destruct Hv as [d Hd]. rewrite Hd at 2. rewrite ip_vsum. apply nsum_zero. intros i Hi. rewrite ip_vs, Ho by lia.
      unfold delta_. destruct (Nat.eqb_spec m i); [lia|ring]. }
    destruct (Nat.eq_dec m q) as [->|N].
    - split; [reflexivity|]. destruct (gi_or G) as [Ho|[_ E]]; [|exact E]. exfalso. apply No. intros i Hi. apply Ho; lia.
    - exfalso. apply No. intros i Hi. apply (gi_on G); lia.
  Qed.

  Lemma nsq_0 (x : V) : nsq x = r0 -> x = vz.
  Proof. exact (@ip_def K V x). Qed.
  Lemma residual_of (b x0 d : V) : vsub b (A (va x0 d)) = vsub (vsub b (A x0)) (A d).
  Proof. rewrite (proj1 Hlin). apply vec_ext. intros z. rewrite !ip_sub, ip_add. ring. Qed.
  Lemma vsub_add (x0 d : V) : vsub (va x0 d) x0 = d.
  Proof. apply vec_ext. intros z. rewrite ip_sub, ip_add. ring. Qed.

  (** the first restart *)
  Lemma over_bound (tol n b_norm : K) : cpos b_norm -> cpos n -> over tol (n, b_norm) = false -> clt (tol *! b_norm) n = false.
  Proof.
    intros Pb Pn H. destruct (clt (tol *! b_norm) n) eqn:E; [exfalso|reflexivity]. apply clt_ok in E. destruct E as [E1 E2].
    unfold over in H. destruct (cdec b_norm r0) as [Z|Z].
    - destruct (cdec n r0) as [Y|Y]; [|discriminate]. apply E2. rewrite Z, Y. ring.
    - assert (Pi : cpos (cinv b_norm)).
      { replace (cinv b_norm) with (b_norm *! (cj (cinv b_norm) *! cinv b_norm)) by (rewrite Hr; field; exact Z). apply cpos_mul; [exact Pb|apply cpos_sq]. }
      assert (Q : clt tol (n *! cinv b_norm) = true).
      { apply clt_ok. split.
        - replace (n *! cinv b_norm -! tol) with ((n -! tol *! b_norm) *! cinv b_norm) by (field; exact Z). apply cpos_mul; assumption.
        - intros ->. apply E2. field. exact Z. }
      congruence.
  Qed.
  Lemma gmres_tol_pos (tol atol b_norm : K) : clt tol r0 = false -> clt atol r0 = false -> cj tol = tol -> cpos b_norm ->
    clt (gmres_tol tol atol b_norm) r0 = false.
  Proof.
    intros H1 H2 Hj Pb. unfold gmres_tol. destruct (clt (tol *! b_norm) atol); [exact H2|].
    destruct (clt (tol *! b_norm) r0) eqn:E; [exfalso|reflexivity]. apply clt_ok in E. destruct E as [E1 E2].
    destruct (cpos_total Hj) as [P|P].
    - apply E2. apply cpos_anti; [apply cpos_mul; assumption|]. replace (cop (tol *! b_norm)) with (r0 -! tol *! b_norm) by ring. exact E1.
    - assert (Z : tol = r0).
      { destruct (cdec tol r0) as [Z|Z]; [exact Z|exfalso]. assert (Q : clt tol r0 = true); [|congruence].
        apply clt_ok. split; [|exact Z]. replace (r0 -! tol) with (cop tol) by ring. exact P. }
      apply E2. rewrite Z. ring.
  Qed.

  Lemma first_restart size b x0 tol atol nkv x beta n_iter done k c :
    clt tol r0 = false -> clt atol r0 = false ->
    gmres_m A size b x0 tol atol nkv 1 = Val (x, beta, n_iter, done, (k, c)) ->
    not_dropped A (g_v c) (Nat.min k (Nat.min nkv size)) ->
    n_iter = 0 /\ exists b_norm, first_restart_spec A size b x0 (gmres_tol tol atol b_norm) nkv k (g_v c) b_norm beta x.
  Proof.
    intros Ht Ha H Hd. unfold gmres_m in H. destruct (nrm b) as [bn| |] eqn:En; cbn [obind] in H; try discriminate.
    assert (Eb : csqrt (ip b b) = Some bn). { unfold nrm in En. destruct (csqrt (ip b b)); [injection En as ->; reflexivity|discriminate]. }
    destruct (csqrt_ok Eb) as [_ Pb].
    cbn [restarts] in H. destruct (gmres A b x0 (Nat.min nkv size) x0 (gmres_tol tol atol bn) bn) as [[[[dn bt] x1] [k1 c1]]| |] eqn:Eg; cbn [obind] in H; try discriminate.
    injection H as <- <- <- <- <- <-. split; [reflexivity|]. exists bn.
    pose proof (gmres_tol_pos Ht Ha (Hr tol) Pb) as Ht'.
    destruct (gmres_ok Hlin Hr Ht' Eg Hd) as (H1 & H2 & H3 & H4 & d & H5 & H6 & H7).
    split; [exact Eb|]. split; [exact H3|]. split; [exact H1|]. split; [exact H4|]. subst x1. rewrite vsub_add. split; [exact H6|].
    intros Hk. destruct (H7 Hk) as (n & E1 & E2). exists n. rewrite residual_of. split; [exact E1|]. destruct (csqrt_ok E1) as [_ Pn].
    destruct (k1 =? 0).
    - unfold over in E2. destruct (cdec r1 r0) as [Z|Z]; [exfalso; exact (one_neq0 Z)|].
      replace n with (n *! cinv r1) by (field; exact Z). exact E2.
    - apply over_bound; assumption.
  Qed.

  (** exact solution *)
  Lemma first_exact size b x0 tol atol nkv x beta n_iter done k c m :
    clt tol r0 = false -> clt atol r0 = false ->
    gmres_m A size b x0 tol atol nkv 1 = Val (x, beta, n_iter, done, (k, c)) ->
    not_dropped A (g_v c) (Nat.min k (Nat.min nkv size)) ->
    m <= Nat.min k (Nat.min nkv size) -> in_span (krylov A (vsub b (A x0)) m) (Nat.iter m A (vsub b (A x0))) -> A x = b.
  Proof.
    intros Ht Ha H Hd Hm Hin. unfold gmres_m in H. destruct (nrm b) as [bn| |] eqn:En; cbn [obind] in H; try discriminate.
    assert (Eb : csqrt (ip b b) = Some bn). { unfold nrm in En. destruct (csqrt (ip b b)); [injection En as ->; reflexivity|discriminate]. }
    destruct (csqrt_ok Eb) as [_ Pb].
    cbn [restarts] in H. destruct (gmres A b x0 (Nat.min nkv size) x0 (gmres_tol tol atol bn) bn) as [[[[dn bt] x1] [k1 c1]]| |] eqn:Eg; cbn [obind] in H; try discriminate.
    injection H as <- <- <- <- <- <-.
    pose proof (gmres_tol_pos Ht Ha (Hr tol) Pb) as Ht'.
    destruct (gmres_inv Hlin Hr Ht' Eg Hd) as (_ & Ebt & C).
    symmetry. apply vsub_0_eq.
    destruct C as [(-> & Eo & ->)|(bt' & Pk & Lk & G & Eu & Hst)].
    - assert (m = 0) by lia. subst m. destruct Hin as [d Hin]. unfold krylov, lin, vsum in Hin. simpl in Hin.
      rewrite va_z. exact Hin.
    - destruct (invariant_stop G Hm Hin) as [_ Z].
      destruct (@update_ok K V A Hlin Hr _ _ _ _ _ _ _ _ G eq_refl Eu) as (d & -> & _ & E3).
      apply nsq_0. rewrite residual_of, E3, Z. ring.
  Qed.
End Solve.

Section Rejects.
  Context {K : cfd} {V : ips K}.
  Variable A : V -> V.
  Lemma jax_gmres_reject size (b : V) x0 (tol : K) atol nkv maxiter :
    clt tol r0 = true \/ (exists a, atol = Some a /\ clt a r0 = true) \/ nkv = 0 \/ size = 0 ->
    jax_gmres A size b x0 tol atol nkv maxiter = Err.
  Proof.
    intros H. unfold jax_gmres. destruct (clt tol r0) eqn:E1; [reflexivity|]. destruct H as [H|H]; [discriminate|].
    destruct H as [(a & -> & ->)|H]; [reflexivity|]. destruct (match atol with Some a => clt a r0 | None => false end); [reflexivity|].
    replace ((if size <? nkv then size else nkv) =? 0) with true; [reflexivity|].
    symmetry. apply Nat.eqb_eq. destruct H as [->| ->]; [destruct size; reflexivity|]. destruct nkv; reflexivity.
  Qed.
  Lemma jax_gmres_info1 size (b : V) x0 (tol : K) atol nkv x info : jax_gmres A size b x0 tol atol nkv 1 = Val (x, info) -> info = 0.
  Proof.
    unfold jax_gmres. destruct (clt tol r0); [discriminate|]. destruct (match atol with Some a => clt a r0 | None => false end); [discriminate|].
    destruct (_ =? 0); [discriminate|]. unfold gmres_m. destruct (nrm b) as [nb| |]; cbn [obind]; try discriminate. cbn [restarts].
    destruct (gmres _ _ _ _ _ _ _) as [[[[dn bt] x1] kc]| |]; cbn [obind]; try discriminate. intros H. injection H as _ <-. destruct dn; reflexivity.
  Qed.
End Rejects.

Section Full.
  Variable K : cfd.
  Add Field Kf2 : (cfth K).
  Hypothesis Hr : forall a : K, cj a = a.
  Hypothesis Hs : forall x : K, cpos x -> csqrt x <> None.
  Variable n : nat.
  Variable A : tup_ips K n -> tup_ips K n.
  Hypothesis Hlin : linear A.
  Hypothesis Hinj : forall x, A x = vz -> x = vz.

  (** tolerance 0 and as many Krylov vectors as entries: the system is solved *)
  Lemma jax_gmres_solves b x0 nkv : 0 < n -> n <= nkv ->
    exists x, jax_gmres A n b x0 r0 None nkv 1 = Val (x, 0) /\ A x = b.
  Proof.
    intros Pn Hn. unfold jax_gmres. rewrite clt00.
    set (z0 := match x0 with Some x => x | None => vz end).
    set (N := if n <? nkv then n else nkv). assert (EN : N = n) by (unfold N; destruct (Nat.ltb_spec n nkv); lia). rewrite EN.
    destruct (Nat.eqb_spec n 0) as [|_]; [lia|].
    unfold gmres_m. rewrite Nat.min_id. unfold nrm. destruct (sqrt_val Hs (ip_pos b)) as [bn Eb]. rewrite Eb. cbn [ofopt obind].
    assert (Et : gmres_tol r0 r0 bn = r0) by (unfold gmres_tol; destruct (clt (r0 *! bn) r0); ring). rewrite Et.
    cbn [restarts]. destruct (@gmres_total K (tup_ips K n) A Hlin Hr n bn b z0 z0 Hs Hinj) as (dn & bt & x & k & c & Eg & Hd).
    rewrite Eg. cbn [obind]. exists x. split; [destruct dn; reflexivity|].
    destruct (gmres_inv Hlin Hr (@clt00 K) Eg Hd) as (_ & Ebt & C).
    symmetry. apply vsub_0_eq. apply nsq_0.
    destruct C as [(-> & Eo & ->)|(bt' & Pk & Lk & G & Eu & Hst)].
    - rewrite va_z. destruct (csqrt_ok Ebt) as [E1 E2]. unfold over in Eo. destruct (cdec r1 r0) as [Z|Z]; [exfalso; exact (one_neq0 Z)|].
      assert (Z0 : bt = r0).
      { destruct (cdec bt r0) as [Y|Y]; [exact Y|]. replace (bt *! cinv r1) with bt in Eo by (field; exact Z).
        rewrite (cpos_ne_lt E2 Y) in Eo. discriminate. }
      rewrite <- E1, Z0. ring.
    - destruct (@update_ok K _ A Hlin Hr _ _ _ _ _ _ _ _ G eq_refl Eu) as (d & -> & _ & E3). rewrite residual_of by exact Hlin. rewrite E3.
      assert (Z0 : bt' = r0); [|rewrite Z0; ring].
      destruct (Nat.le_gt_cases n k) as [Lnk|Lnk].
      + destruct (gi_or G) as [Ho|[_ Q]]; [exfalso|exact Q]. replace (Nat.min k n) with n in * by lia.
        assert (Q : orthonormal (g_v c)).
        { intros i j Hi Hj. rewrite (gi_lv G) in Hi, Hj. apply Ho; lia. }
        apply (orthonormal_le Hr) in Q. rewrite (gi_lv G) in Q. lia.
      + destruct (Hst ltac:(lia)) as (a & Ea & Eo). destruct (csqrt_ok Ea) as [E1 E2].
        assert (Za : a = r0).
        { destruct (cdec a r0) as [Y|Y]; [exact Y|exfalso]. unfold over in Eo. destruct (cdec bn r0) as [Z|Z].
          - destruct (cdec a r0); [contradiction|discriminate].
          - destruct (csqrt_ok Eb) as [_ Pb].
            assert (Pi : cpos (cinv bn)).
            { replace (cinv bn) with (bn *! (cj (cinv bn) *! cinv bn)) by (rewrite Hr; field; exact Z). apply cpos_mul; [exact Pb|apply cpos_sq]. }
            rewrite (@cpos_ne_lt K (a *! cinv bn)) in Eo; [discriminate|apply cpos_mul; assumption|].
            intros Q. apply mul_eq0 in Q. destruct Q as [Q|Q]; [exact (Y Q)|]. apply (@one_neq0 K). rewrite <- (cinv_l Z), Q. ring. }
        rewrite Za in E1. assert (Q : bt' *! bt' = r0) by (rewrite <- E1; ring). apply mul_eq0 in Q. destruct Q; assumption.
  Qed.
End Full.

(** the rotation removes the entry below the diagonal *)
Lemma rotation_zero (K : cfd) (col : list K) givens k col' givens' :
  apply_givens_rotation col givens k = Val (col', givens') -> nth (S k) col' r0 = r0.
Proof.
  unfold apply_givens_rotation. destruct (givens_rotation _ _) as [[cs sn]| |]; cbn [obind]; try discriminate.
  intros H. injection H as <- _. set (l := put _ k _).
  destruct (Nat.lt_ge_cases (S k) (length l)) as [L|L].
  - apply put_same, L.
  - apply nth_overflow. rewrite put_length. exact L.
Qed.
