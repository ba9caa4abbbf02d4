(** * GmresTotal: GMRES with tolerance zero returns, and solves the system with enough Krylov vectors *)
From Coq Require Import Field.
From Verif Require Import Prelude Algebra Krylov KrylovFacts KrylovSpec Gmres GmresSpec GmresFacts GmresStep GmresMain KrylovInst.
Set Implicit Arguments.
Unset Strict Implicit.

Section Total.
  Context {K : cfd} {V : ips K}.
  Add Field Kf : (cfth K).
  Variable A : V -> V.
  Hypothesis Hlin : linear A.
  Hypothesis Hr : forall a : K, cj a = a.
  Hypothesis Hs : forall x : K, cpos x -> csqrt x <> None.
  Hypothesis Hinj : forall x, A x = vz -> x = vz.
  Variables (n_kry : nat) (b_norm : K) (r : V).
  Implicit Types c : carry (V := V).
  Notation ginv := (ginv A n_kry r).

  Lemma clt00 : clt (r0 : K) r0 = false.
  Proof. destruct (clt r0 r0) eqn:E; [|reflexivity]. apply clt_ok in E. destruct E as [_ E]. congruence. Qed.
  Lemma sq_pos (a : K) : cpos (a *! a).
  Proof. pose proof (cpos_sq a) as P. rewrite Hr in P. exact P. Qed.
  Lemma sq_sum0 (a b : K) : a *! a +! b *! b = r0 -> a = r0 /\ b = r0.
  Proof.
    assert (Q : forall a b : K, a *! a +! b *! b = r0 -> a = r0).
    { clear a b. intros a b E. assert (Ea : a *! a = r0).
      { apply cpos_anti; [apply sq_pos|]. replace (cop (a *! a)) with (b *! b); [apply sq_pos|].
        transitivity (a *! a +! b *! b -! a *! a); [ring|rewrite E; ring]. }
      apply mul_eq0 in Ea. destruct Ea; assumption. }
    intros E. split; [exact (Q _ _ E)|]. apply (Q b a). rewrite <- E. ring.
  Qed.
  Lemma sqrt_val (x : K) : cpos x -> exists y, csqrt x = Some y.
  Proof. intros H. specialize (Hs H). destruct (csqrt x) as [y|]; [exists y; reflexivity|congruence]. Qed.
  Lemma back_subst_total (R : list (list K)) b : forall i y, (forall j, j < i -> nth j (nth j R []) r0 <> r0) -> exists y', back_subst R b i y = Val y'.
  Proof.
    induction i as [|i IH]; intros y H; [exists y; reflexivity|]. cbn [back_subst]. destruct (cdec _ _) as [E|_].
    - exfalso. exact (H i (le_n _) E).
    - apply IH. intros j Hj. apply H. lia.
  Qed.

  Lemma ortho_g k c : (forall j, k < j -> vat c j = vz) -> orth k c -> ortho (g_v c).
  Proof.
    intros Hz Ho i j Hi Hj. fold (vat c i) (vat c j). destruct (Nat.le_gt_cases i k) as [Li|Li]; destruct (Nat.le_gt_cases j k) as [Lj|Lj].
    - rewrite !Ho by lia. unfold delta_. rewrite Nat.eqb_refl. split; [|left; reflexivity]. intros N. apply Nat.eqb_neq in N. rewrite N. reflexivity.
    - rewrite (Hz _ Lj). split; [intros _; apply ip_0|]. left. rewrite Ho by lia. unfold delta_. rewrite Nat.eqb_refl. reflexivity.
    - rewrite (Hz _ Li). split; [intros _; apply ip_0l|]. right; reflexivity.
    - rewrite (Hz _ Li), (Hz _ Lj). split; [intros _; apply ip_0l|]. right; reflexivity.
  Qed.

  (** If the remainder of Gram-Schmidt is zero, A v_k is a combination of the vectors so far. *)
  Lemma gs_zero k c bt : ginv k c bt -> k < n_kry -> fst (gs_scan (A (vat c k)) (g_v c)) = vz ->
    A (vat c k) = vsum (S k) (fun i => vs (nth i (snd (gs_scan (A (vat c k)) (g_v c))) r0) (vat c i)).
  Proof.
    intros G Hk E. rewrite (gs_scan_sum (g_v c) (A (vat c k))) at 1. rewrite E, va_comm, va_z, (gi_lv G). apply vsum_pad; [lia|].
    intros i Hi _. fold (vat c i). rewrite (gi_z G (j := i)) by lia. rewrite <- (vs_0 vz) at 1. rewrite vs_mul.
    match goal with |- vs ?x _ = _ => replace x with (r0 : K) by ring end. apply vs_0.
  Qed.

  Lemma work_total k c bt : ginv k c bt -> orth k c -> k < n_kry ->
    exists c', krylov_work A n_kry r0 b_norm k c = Val c' /\ (vat c' (S k) = vz -> spanf (S k) (vat c) (A (vat c k))).
  Proof.
    intros G Ho Hk. unfold krylov_work. rewrite (proj2 (Nat.ltb_lt _ _) Hk). unfold arnoldi_step. fold (vat c k).
    pose proof (gs_zero G Hk) as Hz.
    assert (Lh : length (snd (gs_scan (A (vat c k)) (g_v c))) = S n_kry) by (rewrite gs_scan_length; exact (gi_lv G)).
    destruct (gs_scan (A (vat c k)) (g_v c)) as [vn h]. cbn [fst snd] in *.
    unfold nrm. destruct (sqrt_val (ip_pos vn)) as [n En]. rewrite En. cbn [ofopt obind].
    destruct (csqrt_ok En) as [Hn2 Hnp].
    assert (Hn0 : n = r0 -> vn = vz). { intros ->. apply ip_def. rewrite <- Hn2. ring. }
    assert (Hrn : exists rn, (if clt r0 n then vdiv vn n else Val vz) = Val rn /\ (rn = vz -> vn = vz)).
    { destruct (clt r0 n) eqn:Ec.
      - apply clt_ok in Ec. unfold vdiv. destruct (cdec n r0) as [Q|Q]; [exfalso; apply (proj2 Ec); congruence|].
        exists (vs (cinv n) vn). split; [reflexivity|]. intros E.
        rewrite <- (vs_1 vn). replace (r1 : K) with (n *! cinv n) by (field; exact Q). rewrite <- vs_mul, E.
        rewrite <- (vs_0 vz) at 1. rewrite vs_mul. replace (n *! r0) with (r0 : K) by ring. apply vs_0.
      - exists vz. split; [reflexivity|]. intros _. apply Hn0. destruct (cdec n r0) as [Q|Q]; [exact Q|].
        rewrite (cpos_ne_lt Hnp Q) in Ec. discriminate. }
    destruct Hrn as (rn & -> & Hrn). cbn [obind fst snd].
    unfold apply_givens_rotation. set (col := put h (S k) n). set (col1 := apply_rotations col (g_g c) 0 k).
    assert (Ecb : nth (S k) col1 r0 = n).
    { unfold col1. rewrite apply_rotations_above by lia. apply put_same. lia. }
    rewrite Ecb. set (ca := nth k col1 r0).
    unfold givens_rotation. destruct (@sqrt_val (ca *! ca +! n *! n)) as [t Et]; [apply cpos_add; apply sq_pos|]. rewrite Et. cbn [ofopt obind].
    destruct (csqrt_ok Et) as [Ht2 _].
    destruct (cdec t r0) as [Et0|Nt]; cbn [obind].
    - exfalso. assert (Q : ca *! ca +! n *! n = r0) by (rewrite <- Ht2, Et0; ring). apply sq_sum0 in Q. destruct Q as [Qa Qn].
      specialize (Hz (Hn0 Qn)).
      assert (Hmix : A (vat c k) = vsum k (fun j => vs (nth j col1 r0) (wat c j))).
      { transitivity (mixed (vat c) (gat (g_g c)) 0 k (fun j => nth j col r0)).
        - rewrite mixed_0, Hz. apply vsum_ext. intros i Hi. unfold col. rewrite put_other by lia. reflexivity.
        - rewrite <- (@apply_rotations_mixed K V (vat c) (g_g c) k k col 0); [|lia|unfold col; rewrite put_length; lia|intros j Hj; apply (gi_g G); lia].
          unfold mixed. cbn [plus]. rewrite Nat.sub_diag. fold col1. fold ca. rewrite Qa, vs_0, va_z. unfold vsum at 2. simpl. rewrite va_z.
          reflexivity. }
      destruct (@back_subst_total (g_r c) col1 k []) as [y Ey]. { intros j Hj. apply (gi_d G Hj). }
      destruct (@back_subst_ok K (g_r c) col1 k k [] y Ey) as [Ly Hy]; [reflexivity|intros; lia|].
      assert (Heq : A (vsub (vat c k) (vsum k (fun j => vs (nth j y r0) (vat c j)))) = vz).
      { unfold vsub. rewrite (proj1 Hlin), (proj2 Hlin), (rows_sum Hlin (fun j => nth j y r0) G), Hmix.
        fold (vsub (vsum k (fun j => vs (nth j col1 r0) (wat c j))) (vsum k (fun i => vs (nsum k (fun j => up (g_r c) i j *! nth j y r0)) (wat c i)))).
        rewrite (@vsum_ext K V k (fun i => vs (nsum k (fun j => up (g_r c) i j *! nth j y r0)) (wat c i)) (fun j => vs (nth j col1 r0) (wat c j))).
        - apply vsub_self.
        - intros i Hi. rewrite Hy by exact Hi. reflexivity. }
      apply Hinj, vsub_0_eq in Heq.
      assert (U : ip (vat c k) (vat c k) = r1) by (rewrite Ho by lia; unfold delta_; rewrite Nat.eqb_refl; reflexivity).
      apply (@one_neq0 K). rewrite <- U. rewrite Heq at 2. rewrite ip_vsum. apply nsum_zero. intros j Hj. rewrite ip_vs, Ho by lia.
      unfold delta_. destruct (Nat.eqb_spec k j); [lia|ring].
    - cbn [fst snd].
      match goal with |- context [nth (Nat.min k (n_kry - 1)) ?g (r0, r0)] => destruct (nth (Nat.min k (n_kry - 1)) g (r0, r0)) as [cs sn] end.
      match goal with |- context [ofopt (csqrt ?e)] => destruct (@sqrt_val e) as [a Ea]; [apply cpos_sq|rewrite Ea] end. cbn [ofopt obind].
      eexists. split; [reflexivity|]. unfold vat at 1. cbn [g_v]. rewrite put_same by (rewrite (gi_lv G); lia). intros E.
      rewrite (Hz (Hrn E)). apply spanf_vsum. intros i Hi. apply spanf_vs, spanf_in. exact Hi.
  Qed.

  Lemma loop_total fuel : forall k c bt, ginv k c bt -> bt = nth k (g_b c) r0 -> (over r0 (g_e c) = true -> bt <> r0) ->
    fuel = S n_kry - k -> exists k' c' bt', krylov_loop A n_kry r0 b_norm fuel k c = Val (k', c') /\ ginv (Nat.min k' n_kry) c' bt'.
  Proof.
    pose proof clt00 as Htol.
    induction fuel as [|fuel IH]; intros k c bt G Hb He Hf.
    { pose proof (gi_k G). lia. }
    pose proof (gi_k G) as Hk.
    cbn [krylov_loop]. rewrite (proj2 (Nat.leb_le _ _) Hk), Bool.andb_true_r.
    destruct (over r0 (g_e c)) eqn:Eo.
    - assert (Ho : orth k c). { destruct (gi_or G) as [Q|[_ Q]]; [exact Q|]. exfalso. exact (He eq_refl Q). }
      destruct (Nat.eq_dec k n_kry) as [E|E].
      + assert (Ew : exists c', krylov_work A n_kry r0 b_norm k c = Val c').
        { unfold krylov_work. rewrite (proj2 (Nat.ltb_ge _ _)) by lia. cbn [obind].
          destruct (nth (Nat.min k (n_kry - 1)) (g_g c) (r0, r0)) as [cs sn].
          match goal with |- context [ofopt (csqrt ?e)] => destruct (@sqrt_val e) as [a Ea]; [apply cpos_sq|rewrite Ea] end.
          eexists. reflexivity. }
        destruct Ew as [c' Ew]. rewrite Ew. cbn [obind]. assert (fuel = 0) by lia. subst fuel. cbn [krylov_loop].
        exists (S k), c', bt. split; [reflexivity|]. replace (Nat.min (S k) n_kry) with k by lia. exact (last_work G E Ew).
      + destruct (work_total G Ho) as (c1 & Ew & Hstep); [lia|]. rewrite Ew. cbn [obind].
        destruct (work_ok Hlin Hr Htol G Ho ltac:(lia) Hb Ew Hstep) as (G1 & (a & Ea & Ee) & _).
        destruct (IH (S k) c1 _ G1 eq_refl) as (k' & c' & bt' & H1 & H2).
        { rewrite Ee. intros Q. apply (over_pos Htol) in Q. intros Z. apply Q. rewrite Z in Ea. destruct (csqrt_ok Ea) as [S1 _].
          assert (Y : a *! a = r0) by (rewrite S1; ring). apply mul_eq0 in Y. destruct Y; assumption. }
        { lia. }
        exists k', c', bt'. split; [exact H1|exact H2].
    - exists k, c, bt. split; [reflexivity|]. replace (Nat.min k n_kry) with k by lia. exact G.
  Qed.

  Lemma ginv_not_dropped k c bt : ginv k c bt -> not_dropped A (g_v c) k.
  Proof.
    intros G j Hj E. pose proof (gi_k G). apply in_span_firstn; [rewrite (gi_lv G); lia|].
    destruct (gi_s3 G Hj) as [d Hd]. rewrite vsum_S in Hd. exists d. unfold vat in Hd. rewrite Hd, E.
    apply vec_ext. intros z. rewrite ip_add, ip_vs, ip_0. ring.
  Qed.
End Total.

Section Solve.
  Context {K : cfd} {V : ips K}.
  Add Field Kf2 : (cfth K).
  Variable A : V -> V.
  Hypothesis Hlin : linear A.
  Hypothesis Hr : forall a : K, cj a = a.

  Lemma gmres_total n_kry b_norm b x x0 :
    (forall x : K, cpos x -> csqrt x <> None) -> (forall x, A x = vz -> x = vz) ->
    exists done beta x' k c, gmres A b x n_kry x0 r0 b_norm = Val (done, beta, x', (k, c)) /\ not_dropped A (g_v c) (Nat.min k n_kry).
  Proof.
    intros Hs Hinj. unfold gmres. set (r := vsub b (A x)). unfold nrm. destruct (sqrt_val Hs (ip_pos r)) as [bt Eb]. rewrite Eb. cbn [ofopt obind].
    unfold gmres_krylov. destruct (over r0 (bt, r1)) eqn:Eo.
    - assert (Nb : bt <> r0) by (exact (over_pos (@clt00 K) Eo)). unfold vdiv. destruct (cdec bt r0) as [|_]; [contradiction|]. cbn [obind].
      pose proof (@start_ok K V A Hr n_kry r bt _ Eb Nb eq_refl) as G0.
      destruct (@loop_total K V A Hlin Hr Hs Hinj n_kry b_norm r (S n_kry) 0 _ bt G0 eq_refl (fun _ => Nb) eq_refl) as (k' & c' & bt' & H1 & H2).
      rewrite H1. cbn [obind fst snd]. unfold gmres_update.
      destruct (@back_subst_total K (g_r c') (g_b c') (Nat.min k' n_kry) []) as [y Ey]. { intros j Hj. apply (gi_d H2 Hj). }
      rewrite Ey. cbn [obind]. do 5 eexists. split; [reflexivity|]. exact (ginv_not_dropped H2).
    - cbn [obind krylov_loop krylov_start g_e]. rewrite Eo. cbn [andb obind fst snd gmres_update Nat.min back_subst].
      unfold gmres_update. cbn [Nat.min back_subst obind]. do 5 eexists. split; [reflexivity|]. intros j Hj. simpl in Hj. lia.
  Qed.

  (** If A^m r lies in the Krylov space of dimension m and the loop got that far, the residual is zero. *)
  Lemma bessel (l : list V) (x : V) : orthonormal l ->
    cpos (ip x x -! nsum (length l) (fun i => ip (nth i l vz) x *! ip (nth i l vz) x)).
  Proof.
    intros Ho. set (n := length l). set (p := vsum n (fun i => vs (ip (nth i l vz) x) (nth i l vz))).
    assert (E1 : ip x p = nsum n (fun i => ip (nth i l vz) x *! ip (nth i l vz) x)).
    { unfold p. rewrite ip_vsum. apply nsum_ext. intros i Hi. rewrite ip_vs, (ip_sym Hr x). reflexivity. }
    assert (E2 : ip p p = nsum n (fun i => ip (nth i l vz) x *! ip (nth i l vz) x)).
    { unfold p at 1. rewrite ip_vsuml. apply nsum_ext. intros i Hi. rewrite ip_vsl, Hr. f_equal. unfold p. rewrite ip_vsum.
      rewrite (@nsum_single K n _ i Hi).
      - rewrite ip_vs, Ho by assumption. unfold delta_. rewrite Nat.eqb_refl. ring.
      - intros j Hj N. rewrite ip_vs, Ho by assumption. unfold delta_. destruct (Nat.eqb_spec i j); [congruence|ring]. }
    replace (ip x x -! nsum n (fun i => ip (nth i l vz) x *! ip (nth i l vz) x)) with (ip (vsub x p) (vsub x p)); [apply ip_pos|].
    rewrite ip_sub, !ip_subl, (ip_sym Hr p x), E2, E1. ring.
  Qed.
End Solve.

Section Dim.
  Variable K : cfd.
  Add Field Kf3 : (cfth K).
  Hypothesis Hr : forall a : K, cj a = a.
  Fixpoint tunit (n i : nat) : tup K n :=
    match n with 0 => tt | S n => match i with 0 => (r1, tz K n) | S i => (r0, tunit n i) end end.
  Lemma tip_tz n (x : tup K n) : tip (tz K n) x = r0.
  Proof. exact (@ip_0l K (tup_ips K n) x). Qed.
  Lemma tip_unit n i (x : tup K n) : i < n -> tip (tunit n i) x = tnth x i.
  Proof.
    revert i. induction n as [|n IH]; intros i Hi; [lia|]. destruct i as [|i]; simpl.
    - rewrite tip_tz, cj_1. ring.
    - rewrite IH, cj_0 by lia. ring.
  Qed.
  Definition nK (n : nat) : K := nsum n (fun _ => r1).
  Lemma nK_S n : cpos (nK n -! nK (S n)) -> False.
  Proof.
    unfold nK. rewrite nsum_S. intros H. apply (@one_neq0 K). apply cpos_anti; [apply cpos_1|].
    match type of H with cpos ?e => replace e with (cop (r1 : K)) in H by ring end. exact H.
  Qed.
  (** at most n orthonormal vectors in the space of arrays with n entries *)
  Lemma orthonormal_le n (l : list (tup_ips K n)) : orthonormal l -> length l <= n.
  Proof.
    intros Ho. destruct (Nat.le_gt_cases (length l) n) as [H|H]; [exact H|exfalso].
    set (l' := firstn (S n) l).
    assert (L' : length l' = S n) by (unfold l'; rewrite firstn_length; lia).
    assert (Ho' : orthonormal l').
    { intros i j Hi Hj. unfold l'. rewrite !firstn_nth by lia. apply Ho; lia. }
    apply (@nK_S n).
    assert (E : nK (S n) = nsum n (fun j => nsum (S n) (fun i => tnth (nth i l' (tz K n)) j *! tnth (nth i l' (tz K n)) j))).
    { rewrite nsum_swap. unfold nK. apply nsum_ext. intros i Hi.
      pose proof (Ho' i i) as Q. rewrite L' in Q. specialize (Q Hi Hi). unfold delta_ in Q. rewrite Nat.eqb_refl in Q. rewrite <- Q.
      cbn [ip tup_ips]. rewrite tip_nsum. apply nsum_ext. intros j Hj. rewrite Hr. reflexivity. }
    rewrite E. unfold nK.
    replace (nsum n (fun _ => (r1 : K)) -! nsum n (fun j => nsum (S n) (fun i => tnth (nth i l' (tz K n)) j *! tnth (nth i l' (tz K n)) j)))
      with (nsum n (fun j => r1 -! nsum (S n) (fun i => tnth (nth i l' (tz K n)) j *! tnth (nth i l' (tz K n)) j))).
    2:{ transitivity (nsum n (fun j => (r1 : K) +! cop r1 *! nsum (S n) (fun i => tnth (nth i l' (tz K n)) j *! tnth (nth i l' (tz K n)) j))).
        - apply nsum_ext. intros j Hj. ring.
        - rewrite nsum_add, nsum_mul_l. ring. }
    apply cpos_lsum. intros j Hj. apply in_seq in Hj.
    pose proof (@bessel K (tup_ips K n) Hr l' (tunit n j) Ho') as B. rewrite L' in B. cbn [ip tup_ips] in B.
    rewrite tip_unit in B by lia.
    assert (Eu : tnth (tunit n j) j = r1).
    { clear - Hj. assert (Hj' : j < n) by lia. clear Hj. revert j Hj'. induction n as [|n IH]; intros j Hj; [lia|]. destruct j; [reflexivity|]. simpl. apply IH. lia. }
    rewrite Eu in B.
    rewrite (@nsum_ext K (S n) (fun i => tnth (nth i l' (tz K n)) j *! tnth (nth i l' (tz K n)) j)
      (fun i => tip (nth i l' (vz : tup_ips K n)) (tunit n j) *! tip (nth i l' (vz : tup_ips K n)) (tunit n j))); [exact B|].
    intros i Hi. change (tip (nth i l' vz) (tunit n j)) with (@ip K (tup_ips K n) (nth i l' vz) (tunit n j)).
    rewrite (@ip_sym K (tup_ips K n) Hr). cbn [ip tup_ips]. rewrite tip_unit by lia. reflexivity.
  Qed.
End Dim.
