(** * GmresMain: one restart of GMRES *)
From Coq Require Import Field.
From Verif Require Import Prelude Algebra Krylov KrylovFacts KrylovSpec Gmres GmresSpec GmresFacts GmresStep.
Set Implicit Arguments.
Unset Strict Implicit.

Section Main.
  Context {K : cfd} {V : ips K}.
  Add Field Kf : (cfth K).
  Variable A : V -> V.
  Hypothesis Hlin : linear A.
  Hypothesis Hr : forall a : K, cj a = a.
  Variables (n_kry : nat) (tol b_norm : K).
  Hypothesis Htol : clt tol r0 = false.
  Implicit Types c : carry (V := V).

  Lemma work_keep k c c' j : krylov_work A n_kry tol b_norm k c = Val c' -> j <> S k -> vat c' j = vat c j.
  Proof.
    intros H Hj. unfold krylov_work in H.
    assert (Q : forall vs_ r0_ g, obind (Val (vs_, r0_, g)) (fun x : list V * list (list K) * list (K * K) =>
        let '(vs_, r, g) := x in
        let '(cs, sn) := nth (Nat.min k (n_kry - 1)) g (r0, r0) in
        let bk := nth k (g_b c) r0 in
        let sn := sn *! bk in
        obind (ofopt (csqrt (cj sn *! sn))) (fun a =>
        Val (Carry vs_ r (put (put (g_b c) k (cs *! bk)) (S k) sn) (a, b_norm) g))) = Val c' -> g_v c' = vs_).
    { intros vs_ r g. cbn [obind]. destruct (nth (Nat.min k (n_kry - 1)) g (r0, r0)) as [cs sn].
      destruct (ofopt _); cbn [obind]; try discriminate. intros E. injection E as <-. reflexivity. }
    destruct (k <? n_kry).
    - destruct (arnoldi_step A k (g_v c) tol) as [[vs1 h]| |] eqn:Ea; cbn [obind fst snd] in H; try discriminate.
      destruct (apply_givens_rotation h (g_g c) k) as [[rc g']| |]; cbn [obind fst snd] in H; try discriminate.
      apply Q in H. unfold vat. rewrite H. unfold arnoldi_step in Ea. destruct (gs_scan _ _) as [vn hh].
      destruct (nrm vn) as [n| |]; cbn [obind] in Ea; try discriminate.
      destruct (if clt tol n then vdiv vn n else Val vz) as [rn| |]; cbn [obind] in Ea; try discriminate.
      injection Ea as <- _. apply put_other. exact Hj.
    - apply Q in H. unfold vat. rewrite H. reflexivity.
  Qed.
  Lemma loop_keep fuel : forall k c k' c', krylov_loop A n_kry tol b_norm fuel k c = Val (k', c') ->
    k <= k' /\ k' <= k + fuel /\ forall j, j <= k -> vat c' j = vat c j.
  Proof.
    induction fuel as [|fuel IH]; intros k c k' c' H; cbn [krylov_loop] in H.
    - injection H as <- <-. split; [lia|]. split; [lia|reflexivity].
    - destruct (over tol (g_e c) && (k <=? n_kry)).
      + destruct (krylov_work A n_kry tol b_norm k c) as [c1| |] eqn:Ew; cbn [obind] in H; try discriminate.
        apply IH in H. destruct H as (H1 & H2 & H3). split; [lia|]. split; [lia|]. intros j Hj. rewrite H3 by lia.
        apply (work_keep Ew). lia.
      + injection H as <- <-. split; [lia|]. split; [lia|reflexivity].
  Qed.

  Variable r : V.
  Notation ginv := (ginv A n_kry r).
  Lemma over_pos a d : over tol (a, d) = true -> a <> r0.
  Proof.
    unfold over. intros H ->. destruct (cdec d r0).
    - destruct (cdec r0 r0); [discriminate|congruence].
    - replace (r0 *! cinv d) with (r0 : K) in H by ring. congruence.
  Qed.

  Lemma last_work k c bt c' : ginv k c bt -> k = n_kry -> krylov_work A n_kry tol b_norm k c = Val c' -> ginv k c' bt.
  Proof.
    intros G Hk H. unfold krylov_work in H. rewrite (proj2 (Nat.ltb_ge _ _)) in H by lia. cbn [obind] in H.
    destruct (nth (Nat.min k (n_kry - 1)) (g_g c) (r0, r0)) as [cs sn]. destruct (ofopt _); cbn [obind] in H; try discriminate.
    injection H as <-. destruct G as [L1 L2 L3 L4 Lk G1 G2 G3 G4 G5 G6 G7 G8 G9 G10].
    constructor; cbn [g_v g_r g_b g_g]; try assumption.
    - rewrite !put_length. exact L3.
    - rewrite G5 at 1. f_equal. apply vsum_ext. intros i Hi. rewrite !put_other by lia. reflexivity.
  Qed.

  Lemma loop_ok fuel : forall k c bt k' c', ginv k c bt -> bt = nth k (g_b c) r0 -> (over tol (g_e c) = true -> bt <> r0) ->
    fuel = S n_kry - k -> krylov_loop A n_kry tol b_norm fuel k c = Val (k', c') ->
    (forall j, j < Nat.min k' n_kry -> vat c' (S j) = vz -> spanf (S j) (vat c') (A (vat c' j))) ->
    exists bt', ginv (Nat.min k' n_kry) c' bt' /\ k' <= S n_kry /\
      (k' <= n_kry -> over tol (g_e c') = false /\ bt' = nth k' (g_b c') r0) /\
      (k < k' -> k' <= n_kry -> exists a, csqrt (bt' *! bt') = Some a /\ g_e c' = (a, b_norm)).
  Proof.
    induction fuel as [|fuel IH]; intros k c bt k' c' G Hb He Hf H Hd.
    { pose proof (gi_k G). lia. }
    pose proof (gi_k G) as Hk.
    cbn [krylov_loop] in H. rewrite (proj2 (Nat.leb_le _ _) Hk), Bool.andb_true_r in H.
    destruct (over tol (g_e c)) eqn:Eo.
    - destruct (krylov_work A n_kry tol b_norm k c) as [c1| |] eqn:Ew; cbn [obind] in H; try discriminate.
      assert (Ho : orth k c). { destruct (gi_or G) as [Q|[_ Q]]; [exact Q|]. exfalso. exact (He eq_refl Q). }
      destruct (Nat.eq_dec k n_kry) as [E|E].
      + assert (fuel = 0) by lia. subst fuel. cbn [krylov_loop] in H. injection H as <- <-.
        exists bt. replace (Nat.min (S k) n_kry) with k by lia. split; [exact (last_work G E Ew)|]. split; [lia|]. split; intros; lia.
      + pose proof (loop_keep H) as (K1 & K2 & K3).
        assert (Hstep : vat c1 (S k) = vz -> spanf (S k) (vat c) (A (vat c k))).
        { intros Q. rewrite <- K3 in Q by lia. apply Hd in Q; [|lia].
          rewrite K3, (work_keep Ew) in Q by lia.
          apply (spanf_ext (f := vat c')); [|exact Q]. intros i Hi. rewrite K3, (work_keep Ew) by lia. reflexivity. }
        destruct (work_ok Hlin Hr Htol G Ho ltac:(lia) Hb Ew Hstep) as (G1 & (a & Ea & Ee) & _).
        assert (He1 : over tol (g_e c1) = true -> nth (S k) (g_b c1) r0 <> r0).
        { rewrite Ee. intros Q. apply over_pos in Q. intros Z. apply Q. rewrite Z in Ea. destruct (csqrt_ok Ea) as [S1 _].
          assert (Y : a *! a = r0) by (rewrite S1; ring). apply mul_eq0 in Y. destruct Y; assumption. }
        destruct (IH _ _ _ _ _ G1 eq_refl He1 ltac:(lia) H Hd) as (bt' & R1 & R2 & R3 & R4).
        exists bt'. split; [exact R1|]. split; [exact R2|]. split; [exact R3|]. intros _ Hk'.
        destruct (Nat.eq_dec k' (S k)) as [->|N]; [|apply R4; lia].
        destruct fuel as [|fuel]; [lia|]. cbn [krylov_loop] in H. destruct (over tol (g_e c1) && (S k <=? n_kry)).
        * destruct (krylov_work A n_kry tol b_norm (S k) c1); cbn [obind] in H; try discriminate.
          apply loop_keep in H. lia.
        * injection H as <-. exists a. rewrite (proj2 (R3 Hk')). split; assumption.
    - injection H as <- <-. exists bt. replace (Nat.min k n_kry) with k by lia. split; [exact G|]. split; [lia|].
      split; [intros _; split; assumption|]. intros; lia.
  Qed.

  (** ** the update *)
  Lemma rows_sum k c bt (y : nat -> K) : ginv k c bt ->
    A (vsum k (fun j => vs (y j) (vat c j))) = vsum k (fun i => vs (nsum k (fun j => up (g_r c) i j *! y j)) (wat c i)).
  Proof.
    intros G. rewrite (lin_comb Hlin). apply vec_ext. intros z. rewrite !ip_vsum.
    transitivity (nsum k (fun j => nsum k (fun i => y j *! (up (g_r c) i j *! ip z (wat c i))))).
    - apply nsum_ext. intros j Hj. rewrite ip_vs, (gi_A G) by exact Hj. rewrite nsum_mul_l. f_equal.
      transitivity (ip z (vsum k (fun i => vs (up (g_r c) i j) (wat c i)))).
      + rewrite (@vsum_pad K V (S j) k (fun i => vs (up (g_r c) i j) (wat c i))); [|lia|].
        * f_equal. apply vsum_ext. intros i Hi. unfold up. rewrite (proj2 (Nat.leb_le _ _)) by lia. reflexivity.
        * intros i H1 H2. unfold up. rewrite (proj2 (Nat.leb_gt _ _)) by lia. apply vs_0.
      + rewrite ip_vsum. apply nsum_ext. intros i _. apply ip_vs.
    - rewrite nsum_swap. apply nsum_ext. intros i Hi. rewrite ip_vs, <- nsum_mul_r. apply nsum_ext. intros j Hj. ring.
  Qed.
  (** the residual in rotated coordinates *)
  Lemma residual_coords k c bt (y : nat -> K) : ginv k c bt ->
    vsub r (A (vsum k (fun j => vs (y j) (vat c j)))) =
    va (vsum k (fun i => vs (nth i (g_b c) r0 -! nsum k (fun j => up (g_r c) i j *! y j)) (wat c i))) (vs bt (uat c k)).
  Proof.
    intros G. rewrite (rows_sum y G), (gi_r G) at 1. apply vec_ext. intros z. rewrite ip_sub, !ip_add, !ip_vs, !ip_vsum.
    rewrite (@nsum_ext K k (fun i => ip z (vs (nth i (g_b c) r0 -! nsum k (fun j => up (g_r c) i j *! y j)) (wat c i)))
      (fun i => ip z (vs (nth i (g_b c) r0) (wat c i)) +! cop r1 *! ip z (vs (nsum k (fun j => up (g_r c) i j *! y j)) (wat c i)))).
    - rewrite nsum_add, nsum_mul_l. ring.
    - intros i Hi. rewrite !ip_vs. ring.
  Qed.
  Lemma residual_nsq k c bt (e : nat -> K) : ginv k c bt ->
    nsq (va (vsum k (fun i => vs (e i) (wat c i))) (vs bt (uat c k))) =
    nsq (vsum k (fun i => vs (e i) (wat c i))) +! bt *! bt.
  Proof.
    intros G. unfold nsq. rewrite ip_addl, !ip_add, ip_vsl, !ip_vs, ip_vsl, !Hr. destruct (gi_or G) as [Ho|[_ ->]]; [|ring].
    unfold uat at 3 4. rewrite (@uu_unit K V (vat c) (gat (g_g c)) Hr k Ho (gi_g G) k) by lia.
    assert (E : ip (vsum k (fun i => vs (e i) (wat c i))) (uat c k) = r0).
    { rewrite ip_vsuml. apply nsum_zero. intros i Hi. rewrite ip_vsl. unfold wat, uat. rewrite (@ww_uu K V (vat c) (gat (g_g c)) Hr k Ho (gi_g G)) by lia. ring. }
    rewrite (ip_sym Hr (uat c k)), E. ring.
  Qed.

  Lemma span_krylov k c bt : ginv k c bt -> forall x, spanf k (vat c) x <-> in_span (krylov A r k) x.
  Proof.
    intros G x. assert (Lk : length (krylov A r k) = k) by (unfold krylov; rewrite map_length, seq_length; reflexivity).
    assert (N : forall i, i < k -> nth i (krylov A r k) vz = Nat.iter i A r).
    { intros i Hi. unfold krylov. rewrite (nth_indep _ vz (Nat.iter 0 A r)) by (rewrite map_length, seq_length; exact Hi).
      rewrite (map_nth (fun i => Nat.iter i A r)), seq_nth by exact Hi. reflexivity. }
    split.
    - intros H. assert (Q : spanf k (fun i => Nat.iter i A r) x).
      { apply (spanf_trans H). intros i Hi. apply (@spanf_le K V (S i)); [lia|]. apply (gi_s1 G). lia. }
      destruct Q as [d ->]. exists d. unfold lin. rewrite Lk. apply vsum_ext. intros i Hi. rewrite N by exact Hi. reflexivity.
    - intros [d ->]. unfold lin. rewrite Lk. apply spanf_vsum. intros i Hi. apply spanf_vs. rewrite N by exact Hi.
      apply (@spanf_le K V (S i)); [lia|]. apply (gi_s2 G). lia.
  Qed.

  Lemma update_ok k c bt x0 x q : ginv q c bt -> q = Nat.min k n_kry -> gmres_update n_kry k c x0 = Val x ->
    exists d, x = va x0 d /\ min_residual A r q d /\ nsq (vsub r (A d)) = bt *! bt.
  Proof.
    intros G Hq H. unfold gmres_update in H. rewrite <- Hq in H.
    destruct (back_subst (g_r c) (g_b c) q []) as [y| |] eqn:Eb; cbn [obind] in H; try discriminate. injection H as <-.
    destruct (@back_subst_ok K (g_r c) (g_b c) q q [] y Eb) as [Ly Hy]; [reflexivity|intros; lia|].
    exists (vsum q (fun i => vs (nth i y r0) (vat c i))). split; [reflexivity|].
    assert (Ed : nsq (vsub r (A (vsum q (fun i => vs (nth i y r0) (vat c i))))) = bt *! bt).
    { rewrite (residual_coords (fun i => nth i y r0) G), residual_nsq by exact G.
      rewrite (@vsum_pad K V 0 q); [unfold nsq, vsum; simpl; rewrite ip_0; ring|lia|].
      intros i _ Hi. rewrite Hy by exact Hi. replace (nth i (g_b c) r0 -! nth i (g_b c) r0) with (r0 : K) by ring. apply vs_0. }
    split; [|exact Ed]. split.
    - apply (span_krylov G). exists (fun i => nth i y r0). reflexivity.
    - intros z Hz. apply (span_krylov G) in Hz. destruct Hz as [d ->]. rewrite Ed, (residual_coords d G), residual_nsq by exact G.
      match goal with |- cpos (?p +! ?q -! ?q) => replace (p +! q -! q) with p by ring end. apply ip_pos.
  Qed.
  Lemma min_residual_0 : min_residual A r 0 vz.
  Proof.
    split.
    - exists (fun _ => r0). reflexivity.
    - intros z [d ->]. change (lin d (krylov A r 0)) with (vz : V).
      match goal with |- cpos (?p -! ?p) => replace (p -! p) with (r0 : K) by ring end. apply cpos_0.
  Qed.
End Main.

Section Restart.
  Context {K : cfd} {V : ips K}.
  Add Field Kf2 : (cfth K).
  Variable A : V -> V.
  Hypothesis Hlin : linear A.
  Hypothesis Hr : forall a : K, cj a = a.
  Variables (n_kry : nat) (tol b_norm : K).
  Hypothesis Htol : clt tol r0 = false.

  Lemma firstn_nth T (l : list T) n i d : i < n -> nth i (firstn n l) d = nth i l d.
  Proof.
    revert l i. induction n as [|n IH]; intros l i Hi; [lia|]. destruct l as [|x l]; [destruct i; reflexivity|].
    destruct i; [reflexivity|]. simpl. apply IH. lia.
  Qed.
  Lemma in_span_firstn (l : list V) n x : n <= length l -> in_span (firstn n l) x <-> spanf n (fun i => nth i l vz) x.
  Proof.
    intros Hn. unfold in_span, lin, spanf. rewrite firstn_length. replace (Nat.min n (length l)) with n by lia.
    split; intros [d ->]; exists d; apply vsum_ext; intros i Hi; rewrite firstn_nth by exact Hi; reflexivity.
  Qed.

  Lemma gmres_inv b x x0 done beta x' k c : gmres A b x n_kry x0 tol b_norm = Val (done, beta, x', (k, c)) ->
    let q := Nat.min k n_kry in
    let r := vsub b (A x) in
    not_dropped A (g_v c) q ->
    done = (k <? n_kry - 1) /\ csqrt (nsq r) = Some beta /\
    (k = 0 /\ over tol (beta, r1) = false /\ x' = va x0 vz \/
     exists bt, 0 < k /\ k <= S n_kry /\ ginv A n_kry r q c bt /\ gmres_update n_kry k c x0 = Val x' /\
       (k <= n_kry -> exists a, csqrt (bt *! bt) = Some a /\ over tol (a, b_norm) = false)).
  Proof.
    intros H q r Hd. unfold gmres in H. fold r in H.
    destruct (nrm r) as [bt| |] eqn:En; cbn [obind] in H; try discriminate.
    assert (Eb : csqrt (ip r r) = Some bt). { unfold nrm in En. destruct (csqrt (ip r r)); [injection En as ->; reflexivity|discriminate]. }
    destruct (gmres_krylov A n_kry r bt tol b_norm) as [[k1 c1]| |] eqn:Eg; cbn [obind fst snd] in H; try discriminate.
    destruct (gmres_update n_kry k1 c1 x0) as [x1| |] eqn:Eu; cbn [obind] in H; try discriminate.
    injection H as <- <- <- <- <-.
    unfold gmres_krylov in Eg.
    destruct (over tol (bt, r1)) eqn:Eo.
    - assert (Nb : bt <> r0) by (exact (over_pos Htol Eo)).
      unfold vdiv in Eg. destruct (cdec bt r0) as [|_]; [contradiction|]. cbn [obind] in Eg.
      pose proof (@start_ok K V A Hr n_kry r bt _ Eb Nb eq_refl) as G0.
      destruct (loop_keep Eg) as (K1 & K2 & _).
      assert (Hd' : forall j, j < Nat.min k1 n_kry -> vat c1 (S j) = vz -> spanf (S j) (vat c1) (A (vat c1 j))).
      { (* lengths *)
        intros j Hj Hz. apply Hd in Hz; [|exact Hj]. refine (proj1 (@in_span_firstn (g_v c1) (S j) _ _) Hz).
        assert (Q : length (g_v c1) = S n_kry).
        { clear - Eg. revert Eg. generalize (S n_kry) at 1. intros fuel. generalize 0 at 1.
          assert (L0 : length (g_v (krylov_start n_kry (vs (cinv bt) r) bt)) = S n_kry) by (cbn [krylov_start g_v]; rewrite put_length, repeat_length; reflexivity).
          revert L0. generalize (krylov_start n_kry (vs (cinv bt) r) bt). induction fuel as [|fuel IH]; intros c0 L0 k0 H; cbn [krylov_loop] in H.
          - injection H as _ <-. exact L0.
          - destruct (over tol (g_e c0) && (k0 <=? n_kry)); [|injection H as _ <-; exact L0].
            destruct (krylov_work A n_kry tol b_norm k0 c0) as [c2| |] eqn:Ew; cbn [obind] in H; try discriminate.
            apply (IH c2) in H; [exact H|]. unfold krylov_work in Ew. destruct (k0 <? n_kry).
            + unfold arnoldi_step in Ew. destruct (gs_scan _ _) as [vn hh]. destruct (nrm vn) as [nn| |]; cbn [obind] in Ew; try discriminate.
              destruct (if clt tol nn then vdiv vn nn else Val vz) as [rn| |]; cbn [obind fst snd] in Ew; try discriminate.
              destruct (apply_givens_rotation _ _ _) as [[rc g']| |]; cbn [obind fst snd] in Ew; try discriminate.
              destruct (nth _ g' _) as [cs sn]. destruct (ofopt _); cbn [obind] in Ew; try discriminate. injection Ew as <-. cbn [g_v]. rewrite put_length. exact L0.
            + cbn [obind] in Ew. destruct (nth _ (g_g c0) _) as [cs sn]. destruct (ofopt _); cbn [obind] in Ew; try discriminate. injection Ew as <-. exact L0. }
        lia. }
      destruct (loop_ok Hlin Hr Htol G0 eq_refl (fun _ => Nb) eq_refl Eg Hd') as (bt' & G & Lk & R3 & R4).
      split; [reflexivity|]. split; [exact Eb|]. right. exists bt'.
      assert (Pk : 0 < k1).
      { destruct k1 as [|k1]; [|lia]. exfalso. cbn [krylov_loop] in Eg. cbn [krylov_start g_e] in Eg. rewrite Eo in Eg. cbn [andb Nat.leb] in Eg.
        destruct (krylov_work A n_kry tol b_norm 0 _); cbn [obind] in Eg; try discriminate. apply loop_keep in Eg. lia. }
      split; [exact Pk|]. split; [exact Lk|]. split; [exact G|]. split; [exact Eu|]. intros Hk.
      destruct (R4 Pk Hk) as (a & Ha & He). exists a. split; [exact Ha|]. rewrite <- He. exact (proj1 (R3 Hk)).
    - cbn [obind] in Eg. cbn [krylov_loop krylov_start g_e] in Eg. rewrite Eo in Eg. cbn [andb] in Eg. injection Eg as <- <-.
      split; [reflexivity|]. split; [exact Eb|]. left. split; [reflexivity|]. split; [reflexivity|].
      unfold gmres_update in Eu. cbn [Nat.min back_subst obind] in Eu. injection Eu as <-. unfold vsum. reflexivity.
  Qed.

  (** What [gmres] computes: the minimal residual over a Krylov space of the residual of x. *)
  Lemma gmres_ok b x x0 done beta x' k c : gmres A b x n_kry x0 tol b_norm = Val (done, beta, x', (k, c)) ->
    let q := Nat.min k n_kry in
    let r := vsub b (A x) in
    not_dropped A (g_v c) q ->
    k <= S n_kry /\ done = (k <? n_kry - 1) /\ csqrt (nsq r) = Some beta /\
    (0 < k -> orthonormal (firstn q (g_v c)) /\ same_span (firstn q (g_v c)) (krylov A r q)) /\
    (exists d, x' = va x0 d /\ min_residual A r q d /\
       (k <= n_kry -> exists n, csqrt (nsq (vsub r (A d))) = Some n /\ over tol (n, if k =? 0 then r1 else b_norm) = false)).
  Proof.
    intros H q r Hd. destruct (gmres_inv H Hd) as (Ed & Eb & C). fold r in Eb, C. fold q in C.
    destruct C as [(-> & Eo & ->)|(bt & Pk & Lk & G & Eu & Hst)].
    - split; [lia|]. split; [exact Ed|]. split; [exact Eb|]. split; [lia|].
      exists vz. split; [reflexivity|]. split; [apply min_residual_0|]. intros _. exists beta. split; [|exact Eo].
      assert (E : vsub r (A vz) = r).
      { assert (Z : A vz = vz) by (rewrite <- (vs_0 vz) at 1; rewrite (proj2 Hlin); apply vs_0). rewrite Z.
        apply vec_ext. intros z. rewrite ip_sub, ip_0. ring. }
      rewrite E. exact Eb.
    - split; [exact Lk|]. split; [exact Ed|]. split; [exact Eb|]. split.
      { intros _. assert (Lq : q <= length (g_v c)) by (rewrite (gi_lv G); unfold q; lia). split.
        - intros i j Hi Hj. rewrite firstn_length in Hi, Hj. rewrite !firstn_nth by lia. apply (gi_on G); lia.
        - intros y. rewrite in_span_firstn by exact Lq. apply (span_krylov G). }
      destruct (@update_ok K V A Hlin Hr n_kry r k c bt x0 x' q G eq_refl Eu) as (d & E1 & E2 & E3).
      exists d. split; [exact E1|]. split; [exact E2|]. intros Hk. rewrite E3. destruct (Hst Hk) as (a & Ha & Ho).
      exists a. split; [exact Ha|]. destruct (Nat.eqb_spec k 0); [lia|exact Ho].
  Qed.
End Restart.
