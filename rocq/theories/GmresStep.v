(** * GmresStep: the invariant of the loop of [gmres_krylov] *)
From Coq Require Import Field.
From Verif Require Import Prelude Algebra Krylov KrylovFacts KrylovSpec Gmres GmresSpec GmresFacts.
Set Implicit Arguments.
Unset Strict Implicit.

Section Step.
  Context {K : cfd} {V : ips K}.
  Add Field Kf : (cfth K).
  Variable A : V -> V.
  Hypothesis Hlin : linear A.
  Hypothesis Hr : forall a : K, cj a = a.
  Variables (n_kry : nat) (tol b_norm : K) (r : V).
  Hypothesis Htol : clt tol r0 = false.

  Definition vat (c : carry (V := V)) (i : nat) : V := nth i (g_v c) vz.
  Definition rent (c : carry (V := V)) (i j : nat) : K := nth i (nth j (g_r c) []) r0.
  Definition wat (c : carry (V := V)) : nat -> V := ww (vat c) (gat (g_g c)).
  Definition uat (c : carry (V := V)) : nat -> V := uu (vat c) (gat (g_g c)).
  Notation pow i := (Nat.iter i A r).

  Record ginv (k : nat) (c : carry (V := V)) (bt : K) : Prop := {
    gi_lv : length (g_v c) = S n_kry;
    gi_lr : length (g_r c) = n_kry;
    gi_lb : length (g_b c) = S n_kry;
    gi_lg : length (g_g c) = n_kry;
    gi_k : k <= n_kry;
    gi_z : forall j, k < j -> vat c j = vz;
    gi_on : forall i j, i < k -> j < k -> ip (vat c i) (vat c j) = delta_ i j;
    gi_or : (forall i j, i <= k -> j <= k -> ip (vat c i) (vat c j) = delta_ i j) \/ (vat c k = vz /\ bt = r0);
    gi_g : forall i, i < k -> unit_rot (gat (g_g c) i);
    gi_r : r = va (vsum k (fun i => vs (nth i (g_b c) r0) (wat c i))) (vs bt (uat c k));
    gi_A : forall j, j < k -> A (vat c j) = vsum (S j) (fun i => vs (rent c i j) (wat c i));
    gi_d : forall j, j < k -> rent c j j <> r0;
    gi_s1 : forall j, j <= k -> spanf (S j) (fun i => pow i) (vat c j);
    gi_s2 : forall j, j <= k -> spanf (S j) (vat c) (pow j);
    gi_s3 : forall j, j < k -> spanf (S (S j)) (vat c) (A (vat c j))
  }.

  Lemma lin_vsum n f : A (vsum n f) = vsum n (fun i => A (f i)).
  Proof.
    induction n as [|n IH]; [|rewrite !vsum_S, (proj1 Hlin), IH; reflexivity].
    unfold vsum. simpl. rewrite <- (vs_0 vz) at 1. rewrite (proj2 Hlin), vs_0. reflexivity.
  Qed.
  Lemma lin_comb n (c : nat -> K) f : A (vsum n (fun i => vs (c i) (f i))) = vsum n (fun i => vs (c i) (A (f i))).
  Proof. rewrite lin_vsum. apply vsum_ext. intros i Hi. apply (proj2 Hlin). Qed.
  Lemma span_image n f m g x : spanf n f x -> (forall i, i < n -> spanf m g (A (f i))) -> spanf m g (A x).
  Proof.
    intros [c ->] H. rewrite lin_comb. apply spanf_vsum. intros i Hi. apply spanf_vs, H, Hi.
  Qed.

  Lemma tol_ok (x : K) : clt tol x = true -> cpos x -> x <> r0.
  Proof. intros H P ->. congruence. Qed.
  Lemma cpos_ne_lt (x : K) : cpos x -> x <> r0 -> clt r0 x = true.
  Proof. intros P N. apply clt_ok. split; [replace (x -! r0) with x by ring; exact P|congruence]. Qed.

  (** ** the start *)
  Lemma repeat_nth T (x : T) n i : nth i (repeat x n) x = x.
  Proof. revert i. induction n as [|n IH]; intros [|i]; simpl; auto. Qed.
  Lemma start_ok beta v : csqrt (ip r r) = Some beta -> beta <> r0 -> v = vs (cinv beta) r ->
    ginv 0 (krylov_start n_kry v beta) beta.
  Proof.
    intros Hb Nb ->. destruct (csqrt_ok Hb) as [Hsq Hp].
    assert (E0 : vat (krylov_start n_kry (vs (cinv beta) r) beta) 0 = vs (cinv beta) r) by reflexivity.
    assert (Hu : ip (vs (cinv beta) r) (vs (cinv beta) r) = r1).
    { rewrite ip_vs, ip_vsl, Hr, <- Hsq. field. exact Nb. }
    split.
    - cbn [krylov_start g_v]. rewrite put_length, repeat_length. reflexivity.
    - cbn [krylov_start g_r]. apply repeat_length.
    - cbn [krylov_start g_b]. rewrite put_length, repeat_length. reflexivity.
    - cbn [krylov_start g_g]. apply repeat_length.
    - lia.
    - intros j Hj. unfold vat. cbn [krylov_start g_v]. rewrite put_other by lia. apply repeat_nth.
    - intros; lia.
    - left. intros i j Hi Hj. replace i with 0 by lia. replace j with 0 by lia. rewrite E0, Hu. reflexivity.
    - intros; lia.
    - unfold uat. cbn [uu]. rewrite E0. apply vec_ext. intros z. rewrite ip_add, !ip_vs. unfold vsum. simpl. rewrite ip_0.
      field. exact Nb.
    - intros; lia.
    - intros; lia.
    - intros j Hj. replace j with 0 by lia. rewrite E0. apply spanf_vs. exists (fun _ => r1). unfold vsum. simpl.
      rewrite vs_1, va_z. reflexivity.
    - intros j Hj. replace j with 0 by lia. exists (fun _ => beta). rewrite vsum_S, E0.
      apply vec_ext. intros z. rewrite ip_add, !ip_vs. unfold vsum. simpl. rewrite ip_0. field. exact Nb.
    - intros; lia.
  Qed.

  (** ** one step *)
  Definition orth (k : nat) (c : carry (V := V)) : Prop := forall i j, i <= k -> j <= k -> ip (vat c i) (vat c j) = delta_ i j.

  Lemma vsum_pad n m f : n <= m -> (forall i, n <= i -> i < m -> f i = vz) -> vsum m f = vsum (V := V) n f.
  Proof.
    intros H. induction H as [|m H IH]; intros Hz; [reflexivity|]. rewrite vsum_S, Hz, va_z by lia. apply IH.
    intros; apply Hz; lia.
  Qed.

  Lemma work_ok k c bt c' : ginv k c bt -> orth k c -> k < n_kry -> bt = nth k (g_b c) r0 ->
    krylov_work A n_kry tol b_norm k c = Val c' ->
    (vat c' (S k) = vz -> spanf (S k) (vat c) (A (vat c k))) ->
    ginv (S k) c' (nth (S k) (g_b c') r0) /\
    (exists a, csqrt (nth (S k) (g_b c') r0 *! nth (S k) (g_b c') r0) = Some a /\ g_e c' = (a, b_norm)) /\
    (forall j, j <= k -> vat c' j = vat c j).
  Proof.
    intros G Ho Hk Hbt. unfold krylov_work. rewrite (proj2 (Nat.ltb_lt _ _) Hk).
    unfold arnoldi_step. fold (vat c k).
    destruct (gs_scan (A (vat c k)) (g_v c)) as [vn h] eqn:Egs.
    assert (Evn : vn = fst (gs_scan (A (vat c k)) (g_v c))) by (rewrite Egs; reflexivity).
    assert (Eh : h = snd (gs_scan (A (vat c k)) (g_v c))) by (rewrite Egs; reflexivity).
    cbn [obind]. destruct (nrm vn) as [n| |] eqn:En; cbn [obind]; try discriminate.
    unfold nrm in En. destruct (csqrt (ip vn vn)) as [n'|] eqn:Es; [|discriminate]. injection En as ->.
    destruct (csqrt_ok Es) as [Hn2 Hnp].
    destruct (if clt tol n then vdiv vn n else Val vz) as [rn| |] eqn:Ern; cbn [obind]; try discriminate.
    cbn [snd fst]. destruct (apply_givens_rotation _ (g_g c) k) as [[rc g']| |] eqn:Eg; cbn [obind fst snd]; try discriminate.
    replace (Nat.min k (n_kry - 1)) with k by lia.
    destruct (nth k g' (r0, r0)) as [cs sn] eqn:Ecs. rewrite <- Hbt.
    destruct (csqrt (cj (sn *! bt) *! (sn *! bt))) as [a|] eqn:Ea; cbn [ofopt obind]; [|discriminate].
    intros H. injection H as <-. cbn [g_v g_b g_r g_g g_e vat]. intros Hdrop.
    assert (Lv := gi_lv G). assert (Lh : length h = S n_kry) by (rewrite Eh, gs_scan_length; exact Lv).
    (* the new vector *)
    set (v' := fun i => nth i (put (g_v c) (S k) rn) vz).
    assert (V1 : forall j, j <= k -> v' j = vat c j) by (intros j Hj; unfold v'; rewrite put_other by lia; reflexivity).
    assert (V2 : v' (S k) = rn) by (unfold v'; apply put_same; lia).
    assert (V3 : forall j, S k < j -> v' j = vz) by (intros j Hj; unfold v'; rewrite put_other by lia; apply (gi_z G); lia).
    (* Gram-Schmidt *)
    assert (Hor : ortho (g_v c)).
    { intros i j Hi Hj. fold (vat c i) (vat c j). destruct (Nat.le_gt_cases i k) as [Li|Li]; destruct (Nat.le_gt_cases j k) as [Lj|Lj].
      - rewrite !Ho by lia. unfold delta_. rewrite Nat.eqb_refl. split; [|left; reflexivity]. intros N. apply Nat.eqb_neq in N. rewrite N. reflexivity.
      - rewrite (gi_z G Lj). split; [intros _; apply ip_0|]. left. rewrite Ho by lia. unfold delta_. rewrite Nat.eqb_refl. reflexivity.
      - rewrite (gi_z G Li). split; [intros _; apply ip_0l|]. right; reflexivity.
      - rewrite (gi_z G Li), (gi_z G Lj). split; [intros _; apply ip_0l|]. right; reflexivity. }
    assert (Hvn : forall i, i <= k -> ip (vat c i) vn = r0).
    { intros i Hi. rewrite Evn. apply gs_scan_orth; [exact Hor|lia]. }
    assert (Hsum : A (vat c k) = va vn (vsum (S k) (fun i => vs (nth i h r0) (vat c i)))).
    { rewrite (gs_scan_sum (g_v c) (A (vat c k))). rewrite <- Evn, <- Eh. f_equal. rewrite Lv. apply vsum_pad; [lia|].
      intros i Hi _. fold (vat c i). rewrite (gi_z G) by lia. rewrite <- (vs_0 vz) at 1. rewrite vs_mul.
      replace (nth i h r0 *! r0) with (r0 : K) by ring. apply vs_0. }
    assert (Hnew : vn = vs n rn /\ (ip rn rn = r1 \/ rn = vz /\ n = r0)).
    { destruct (clt tol n) eqn:Et.
      - assert (Nn : n <> r0) by (apply tol_ok; assumption). unfold vdiv in Ern. destruct (cdec n r0) as [|_]; [contradiction|].
        injection Ern as <-. split.
        + rewrite vs_mul. replace (n *! cinv n) with (r1 : K) by (field; exact Nn). symmetry. apply vs_1.
        + left. rewrite ip_vs, ip_vsl, Hr, <- Hn2. field. exact Nn.
      - injection Ern as <-. assert (Ez : v' (S k) = vz) by exact V2. specialize (Hdrop Ez). destruct Hdrop as [d Hd].
        assert (Evz : vn = vz).
        { apply ip_def. assert (E : vn = vsum (S k) (fun i => vs (d i -! nth i h r0) (vat c i))).
          { apply vec_ext. intros z. rewrite ip_vsum. apply (f_equal (ip z)) in Hd. rewrite Hsum, ip_add, !ip_vsum in Hd.
            transitivity (nsum (S k) (fun i => ip z (vs (d i) (vat c i))) -! nsum (S k) (fun i => ip z (vs (nth i h r0) (vat c i)))); [rewrite <- Hd; ring|].
            transitivity (nsum (S k) (fun i => ip z (vs (d i) (vat c i)) +! cop r1 *! ip z (vs (nth i h r0) (vat c i)))).
            - rewrite nsum_add, nsum_mul_l. ring.
            - apply nsum_ext. intros i Hi. rewrite !ip_vs. ring. }
          rewrite E at 1. rewrite ip_vsuml. apply nsum_zero. intros i Hi. rewrite ip_vsl, Hvn by lia. ring. }
        assert (n = r0).
        { assert (Q : n *! n = r0) by (rewrite Hn2, Evz; apply ip_0). apply mul_eq0 in Q. destruct Q; assumption. }
        subst n. rewrite Evz. split; [symmetry; apply vs_0|right; split; reflexivity]. }
    destruct Hnew as [Hvnr Hrn].
    assert (Hrno : forall i, i <= k -> ip (vat c i) rn = r0).
    { intros i Hi. destruct Hrn as [Hu|[-> _]]; [|apply ip_0].
      destruct (cdec n r0) as [Z|Z].
      - (* n = 0 would not give a vector of length 1 *)
        destruct (clt tol n) eqn:Et; [exfalso; exact (tol_ok Et Hnp Z)|]. injection Ern as <-. apply ip_0.
      - pose proof (Hvn i Hi) as Q. rewrite Hvnr, ip_vs in Q. apply mul_eq0 in Q. destruct Q; [contradiction|assumption]. }
    (* the column *)
    set (col := put h (S k) n) in *.
    assert (Hcol : A (vat c k) = vsum (S (S k)) (fun i => vs (nth i col r0) (v' i))).
    { rewrite Hsum, (vsum_S (S k)). rewrite V2. unfold col at 2. rewrite put_same by lia. rewrite <- Hvnr, va_comm. f_equal.
      apply vsum_ext. intros i Hi. unfold col. rewrite put_other, V1 by lia. reflexivity. }
    (* rotations *)
    unfold apply_givens_rotation in Eg. set (col1 := apply_rotations col (g_g c) 0 k) in *.
    set (ca := nth k col1 r0) in *. set (cb := nth (S k) col1 r0) in *.
    assert (Ecb : cb = n).
    { unfold cb, col1. rewrite apply_rotations_above by lia. unfold col. apply put_same. lia. }
    unfold givens_rotation in Eg. destruct (csqrt (ca *! ca +! cb *! cb)) as [t|] eqn:Et; cbn [ofopt obind] in Eg; [|discriminate].
    destruct (cdec t r0) as [|Nt]; [discriminate|]. cbn [obind] in Eg. destruct (csqrt_ok Et) as [Ht2 Htp].
    injection Eg as Erc Eg'.
    assert (Lg := gi_lg G).
    assert (Ecs' : (cs, sn) = (ca *! cinv t, cop cb *! cinv t)) by (rewrite <- Ecs, <- Eg'; apply put_same; lia).
    injection Ecs' as Hcs Hsn.
    assert (G1 : forall j, j < k -> gat g' j = gat (g_g c) j) by (intros j Hj; unfold gat; rewrite <- Eg'; apply put_other; lia).
    assert (G2 : gat g' k = (cs, sn)) by exact Ecs.
    assert (Hrot : unit_rot (gat g' k)).
    { rewrite G2. unfold unit_rot. cbn [fst snd]. rewrite Hcs, Hsn.
      transitivity ((ca *! ca +! cb *! cb) *! (cinv t *! cinv t)); [ring|rewrite <- Ht2; field; exact Nt]. }
    assert (Hg' : forall j, j < S k -> unit_rot (gat g' j)).
    { intros j Hj. destruct (Nat.eq_dec j k) as [->|N]; [exact Hrot|]. rewrite G1 by lia. apply (gi_g G). lia. }
    set (c' := Carry (put (g_v c) (S k) rn) (put (g_r c) k rc) (put (put (g_b c) k (cs *! bt)) (S k) (sn *! bt)) (a, b_norm) g').
    assert (W1 : forall j, j < k -> wat c' j = wat c j).
    { intros j Hj. apply ww_ext; [intros i Hi; exact (V1 i ltac:(lia))|intros i Hi; apply G1; lia]. }
    assert (U1 : uat c' k = uat c k).
    { apply uu_ext; [intros i Hi; exact (V1 i ltac:(lia))|intros i Hi; apply G1; lia]. }
    assert (Lc1 : length col1 = S n_kry) by (unfold col1; rewrite apply_rotations_length; unfold col; rewrite put_length; exact Lh).
    assert (Hmix : A (vat c k) = va (va (vsum k (fun j => vs (nth j col1 r0) (wat c j))) (vs ca (uat c k))) (vs cb rn)).
    { rewrite Hcol, <- (mixed_0 v' (gat (g_g c)) (S k) (fun j => nth j col r0)).
      rewrite <- (@apply_rotations_mixed K V v' (g_g c) (S k) k col 0); [|lia|unfold col; rewrite put_length; lia|intros j Hj; apply (gi_g G); lia].
      unfold mixed. cbn [plus]. replace (S k - k) with 1 by lia. fold col1. f_equal; [f_equal|].
      - apply vsum_ext. intros j Hj. f_equal. apply ww_ext; [intros i Hi; exact (V1 i ltac:(lia))|reflexivity].
      - unfold ca. f_equal. apply uu_ext; [intros i Hi; exact (V1 i ltac:(lia))|reflexivity].
      - unfold vsum. simpl. rewrite va_z, Nat.add_0_r. fold cb. rewrite V2. reflexivity. }
    assert (Hww : wat c' k = va (vs cs (uat c k)) (vs (cop sn) rn)).
    { change (wat c' k) with (va (vs (fst (gat g' k)) (uat c' k)) (vs (cop (snd (gat g' k))) (v' (S k)))). rewrite G2, U1, V2. reflexivity. }
    assert (Huu : uat c' (S k) = va (vs sn (uat c k)) (vs cs rn)).
    { change (uat c' (S k)) with (va (vs (snd (gat g' k)) (uat c' k)) (vs (fst (gat g' k)) (v' (S k)))). rewrite G2, U1, V2. reflexivity. }
    assert (Lb := gi_lb G).
    assert (B1 : nth (S k) (g_b c') r0 = sn *! bt) by (cbn [c' g_b]; apply put_same; rewrite put_length; lia).
    assert (B2 : nth k (g_b c') r0 = cs *! bt) by (cbn [c' g_b]; rewrite put_other, put_same by lia; reflexivity).
    assert (B3 : forall j, j < k -> nth j (g_b c') r0 = nth j (g_b c) r0) by (intros j Hj; cbn [c' g_b]; rewrite !put_other by lia; reflexivity).
    assert (Lr := gi_lr G).
    assert (R1 : forall i j, j < k -> rent c' i j = rent c i j) by (intros i j Hj; unfold rent; cbn [c' g_r]; rewrite put_other by lia; reflexivity).
    assert (Erk : cs *! ca -! sn *! cb = t).
    { rewrite Hcs, Hsn. transitivity ((ca *! ca +! cb *! cb) *! cinv t); [ring|rewrite <- Ht2; field; exact Nt]. }
    assert (R2 : forall i, i < k -> rent c' i k = nth i col1 r0).
    { intros i Hi. unfold rent. cbn [c' g_r]. rewrite put_same by lia. rewrite <- Erc, !put_other by lia. reflexivity. }
    assert (R3 : rent c' k k = t).
    { unfold rent. cbn [c' g_r]. rewrite put_same by lia. rewrite <- Erc, put_other by lia. rewrite put_same by lia. rewrite <- Hcs, <- Hsn. exact Erk. }
    assert (Hz0 : sn *! ca +! cs *! cb = r0) by (rewrite Hcs, Hsn; ring).
    assert (Hlow : forall i j, i <= k -> j <= k -> ip (vat c' i) (vat c' j) = delta_ i j).
    { intros i j Hi Hj. change (ip (v' i) (v' j) = delta_ i j). rewrite !V1 by lia. apply Ho; lia. }
    fold c'. change (put (put (g_b c) k (cs *! bt)) (S k) (sn *! bt)) with (g_b c').
    split; [|split].
    - rewrite B1. split; cbn [c' g_v g_r g_b g_g].
      + rewrite put_length. exact Lv.
      + rewrite put_length. exact Lr.
      + rewrite !put_length. exact Lb.
      + rewrite <- Eg', put_length. exact Lg.
      + lia.
      + intros j Hj. exact (V3 j Hj).
      + intros i j Hi Hj. apply Hlow; lia.
      + destruct Hrn as [Hu|[Hz Hn0]].
        * left. intros i j Hi Hj. change (ip (v' i) (v' j) = delta_ i j).
          destruct (Nat.eq_dec i (S k)) as [->|Ni]; destruct (Nat.eq_dec j (S k)) as [->|Nj].
          -- rewrite V2, Hu. unfold delta_. rewrite Nat.eqb_refl. reflexivity.
          -- rewrite V2, V1, ip_cj, Hrno by lia. unfold delta_. rewrite (proj2 (Nat.eqb_neq _ _)) by lia. apply cj_0.
          -- rewrite V2, V1, Hrno by lia. unfold delta_. rewrite (proj2 (Nat.eqb_neq _ _)) by lia. reflexivity.
          -- apply Hlow; lia.
        * right. split; [change (v' (S k) = vz); rewrite V2; exact Hz|]. rewrite Hsn, Ecb, Hn0. ring.
      + exact Hg'.
      + rewrite (gi_r G) at 1. rewrite (vsum_S k). rewrite Hww, Huu.
        change (nth k (put (put (g_b c) k (cs *! bt)) (S k) (sn *! bt)) r0) with (nth k (g_b c') r0). rewrite B2.
        rewrite (@vsum_ext K V k (fun i => vs (nth i (put (put (g_b c) k (cs *! bt)) (S k) (sn *! bt)) r0) (wat c' i)) (fun i => vs (nth i (g_b c) r0) (wat c i))).
        2:{ intros i Hi. rewrite W1 by lia. f_equal. exact (B3 i Hi). }
        apply vec_ext. intros z. rewrite !ip_add, !ip_vs, !ip_add, !ip_vs.
        assert (Q : cs *! cs +! sn *! sn = r1) by (rewrite G2 in Hrot; exact Hrot).
        transitivity (ip z (vsum k (fun i => vs (nth i (g_b c) r0) (wat c i))) +! (cs *! cs +! sn *! sn) *! (bt *! ip z (uat c k))); [rewrite Q; ring|ring].
      + intros j Hj. destruct (Nat.eq_dec j k) as [->|N].
        * change (vat c' k) with (v' k). rewrite V1 by lia. rewrite Hmix, (vsum_S k), Hww, R3.
          rewrite (@vsum_ext K V k (fun i => vs (rent c' i k) (wat c' i)) (fun i => vs (nth i col1 r0) (wat c i))).
          2:{ intros i Hi. rewrite W1, R2 by lia. reflexivity. }
          apply vec_ext. intros z. rewrite !ip_add, !ip_vs, !ip_add, !ip_vs.
          assert (Ea' : ca = t *! cs) by (rewrite Hcs; field; exact Nt).
          assert (Eb' : cb = cop (t *! sn)) by (rewrite Hsn; field; exact Nt).
          rewrite Ea', Eb'. ring.
        * change (vat c' j) with (v' j). rewrite V1 by lia. rewrite (gi_A G) by lia. apply vsum_ext. intros i Hi.
          rewrite W1, R1 by lia. reflexivity.
      + intros j Hj. destruct (Nat.eq_dec j k) as [->|N]; [rewrite R3; exact Nt|]. rewrite R1 by lia. apply (gi_d G). lia.
      + intros j Hj. change (vat c' j) with (v' j). destruct (Nat.eq_dec j (S k)) as [->|N].
        * rewrite V2. assert (Sn : spanf (S (S k)) (fun i => pow i) vn).
          { assert (E : vn = vsub (A (vat c k)) (vsum (S k) (fun i => vs (nth i h r0) (vat c i)))).
            { rewrite Hsum. apply vec_ext. intros z. rewrite ip_sub, ip_add. ring. }
            rewrite E. apply spanf_sub.
            - apply (span_image (gi_s1 G (le_n k))). intros i Hi. exact (@spanf_in K V (S (S k)) (fun i => pow i) (S i) ltac:(lia)).
            - apply spanf_vsum. intros i Hi. apply spanf_vs. apply (@spanf_le K V (S i)); [lia|]. apply (gi_s1 G). lia. }
          destruct Hrn as [Hu|[-> _]]; [|apply spanf_0].
          destruct (clt tol n) eqn:Etn.
          -- unfold vdiv in Ern. destruct (cdec n r0); [discriminate|]. injection Ern as <-. apply spanf_vs. exact Sn.
          -- injection Ern as <-. apply spanf_0.
        * rewrite V1 by lia. apply (gi_s1 G). lia.
      + assert (S3 : forall j, j <= k -> spanf (S (S j)) v' (A (v' j))).
        { intros j Hj. rewrite V1 by lia. destruct (Nat.eq_dec j k) as [->|N].
          - rewrite Hcol. apply spanf_vsum. intros i Hi. apply spanf_vs, spanf_in. exact Hi.
          - apply (@spanf_ext K V (S (S j)) (vat c)); [intros i Hi; symmetry; apply V1; lia|]. apply (gi_s3 G). lia. }
        intros j Hj. change (vat c') with v'. destruct (Nat.eq_dec j (S k)) as [->|N].
        * change (pow (S k)) with (A (pow k)).
          apply (span_image (gi_s2 G (le_n k))). intros i Hi.
          rewrite <- V1 by lia. apply (@spanf_le K V (S (S i))); [lia|]. apply S3. lia.
        * apply (@spanf_ext K V (S j) (vat c)); [intros i Hi; symmetry; apply V1; lia|]. apply (gi_s2 G). lia.
      + intros j Hj. change (spanf (S (S j)) v' (A (v' j))). rewrite V1 by lia. destruct (Nat.eq_dec j k) as [->|N].
        * rewrite Hcol. apply spanf_vsum. intros i Hi. apply spanf_vs, spanf_in. exact Hi.
        * apply (@spanf_ext K V (S (S j)) (vat c)); [intros i Hi; symmetry; apply V1; lia|]. apply (gi_s3 G). lia.
    - exists a. split; [|reflexivity]. change (csqrt (nth (S k) (g_b c') r0 *! nth (S k) (g_b c') r0) = Some a). rewrite B1. rewrite Hr in Ea. exact Ea.
    - intros j Hj. exact (V1 j Hj).
  Qed.
End Step.
