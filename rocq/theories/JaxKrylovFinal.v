(** * JaxKrylovFinal: results of the eigensolvers of the jax backend *)
From Coq Require Import Field Permutation.
From Verif Require Import Prelude Algebra Krylov KrylovFacts KrylovSpec KrylovLanczos KrylovRitz Gmres GmresSpec GmresFacts GmresMain
  JaxKrylov JaxKrylovSpec JaxKrylovFacts JaxKrylovArn JaxKrylovShift JaxKrylovSort JaxKrylovMain JaxKrylovOuter.
Set Implicit Arguments.
Unset Strict Implicit.

Section Final.
  Context {K : cfd} {V : ips K}.
  Add Field Kf : (cfth K).
  Variable A : V -> V.

  Lemma fac0 (Vm : list V) H f : fac A 0 (vat Vm) (ent H) f.
  Proof. constructor; intros; lia. Qed.
  (** *** the space of a factorisation *)
  Lemma fac_span n (Vm : list V) H f x a : linear A -> n <= length Vm -> fac A n (vat Vm) (ent H) f ->
    (forall j, S j < n -> ent H (S j) j <> r0) -> a <> r0 -> (0 < n -> nth 0 Vm vz = vs a x) ->
    same_span (firstn n Vm) (krylov A x n).
  Proof.
    intros Hlin Hn F Hnz Ha Hx y. destruct Hlin as [L1 L2].
    assert (Lk : length (krylov A x n) = n) by (unfold krylov; rewrite map_length; apply seq_length).
    assert (Lf : length (firstn n Vm) = n) by (rewrite firstn_length; lia).
    assert (Hs : forall l : list V, in_span l y <-> spanf (length l) (fun i => nth i l vz) y) by (intros l; reflexivity).
    rewrite !Hs, Lk, Lf.
    set (v := fun i => nth i Vm vz).
    assert (E1 : forall j, j < n -> nth j (krylov A x n) vz = Nat.iter j A x) by (intros j Hj; apply (@nth_map_seq V n (fun i => Nat.iter i A x)); exact Hj).
    assert (Avs : forall m g z, spanf m g z -> spanf m (fun i => A (g i)) (A z)).
    { intros m g z [c ->]. exists c. apply (lin_vsum (conj L1 L2)). }
    assert (P1 : forall j, j < n -> forall i, i <= j -> spanf (S j) (fun l => Nat.iter l A x) (v i)).
    { induction j as [|j IH]; intros Hj i Hi.
      - replace i with 0 by lia. unfold v. rewrite Hx by lia. apply spanf_vs. exact (@spanf_in K V 1 (fun l => Nat.iter l A x) 0 ltac:(lia)).
      - destruct (Nat.eq_dec i (S j)) as [->|Hne]; [|apply spanf_le with (n := S j); [lia|]; apply IH; lia].
        assert (E : v (S j) = vs (cinv (ent H (S j) j)) (vsub (A (v j)) (vsum (S j) (fun i => vs (ent H i j) (v i))))).
        { unfold v. rewrite (f_eq F) by lia. destruct (Nat.eqb_spec (S j) n); [lia|].
          rewrite (@vsum_cut K V n (S (S j))); [|lia|intros b B1 B2; rewrite (f_hess F) by lia; apply vs_0].
          rewrite vsum_S. apply vec_ext. intros z. rewrite ip_vs, ip_sub, !ip_add, ip_vs, ip_0. cbn beta.
          transitivity (cinv (ent H (S j) j) *! ent H (S j) j *! ip z (nth (S j) Vm vz)); [rewrite cinv_l by (apply Hnz; lia); ring|]. ring. }
        rewrite E. apply spanf_vs, spanf_sub.
        + assert (Q : spanf (S j) (fun l => A (Nat.iter l A x)) (A (v j))) by (apply Avs, IH; lia).
          apply (spanf_trans Q). intros b Hb. exact (@spanf_in K V (S (S j)) (fun l => Nat.iter l A x) (S b) ltac:(lia)).
        + apply spanf_vsum. intros b Hb. apply spanf_vs. apply spanf_le with (n := S j); [lia|]. apply IH; lia. }
    assert (P2 : forall j, j < n -> spanf (S j) v (Nat.iter j A x)).
    { induction j as [|j IH]; intros Hj.
      - cbn [Nat.iter]. replace x with (vs (cinv a) (v 0)); [apply spanf_vs; exact (@spanf_in K V 1 v 0 ltac:(lia))|].
        unfold v. rewrite Hx by exact Hj. rewrite vs_mul, cinv_l, vs_1 by exact Ha. reflexivity.
      - change (Nat.iter (S j) A x) with (A (Nat.iter j A x)). apply (spanf_trans (Avs _ _ _ (IH ltac:(lia)))).
        intros b Hb. unfold v at 2. rewrite (f_eq F) by lia. destruct (Nat.eqb_spec (S b) n); [lia|]. rewrite va_z.
        rewrite (@vsum_cut K V n (S (S j))); [|lia|intros e B1 B2; rewrite (f_hess F) by lia; apply vs_0].
        apply spanf_vsum. intros e He. apply spanf_vs. exact (@spanf_in K V (S (S j)) v e He). }
    split; intros Hy; apply (spanf_trans Hy); intros j Hj.
    - rewrite firstn_nth by exact Hj. apply spanf_ext with (f := fun i => Nat.iter i A x); [intros i Hl; symmetry; apply E1, Hl|].
      apply spanf_le with (n := S j); [lia|]. exact (P1 j Hj j (le_n j)).
    - rewrite E1 by exact Hj. apply spanf_ext with (f := v); [intros i Hl; rewrite firstn_nth by exact Hl; reflexivity|].
      apply spanf_le with (n := S j); [lia|]. apply P2, Hj.
  Qed.

  Variable qr : mx K -> option (mx K * mx K).
  Variable eig : mx K -> option (list K * mx K).
  Variables (eps : K) (N k : nat) (which : target) (tol : K).

  (** *** the end of both methods *)
  Section Fin.
    Variable init : V.
    Hypothesis Hlin : linear A.
    Hypothesis Hk0 : 0 < k.
    Hypothesis HkN : k < N.
    Variables (c : @rcarry K V) (f : V) (th : list K) (U : mx K) (xs : list V).
    Hypothesis G : goodf A N k tol init c f.
    Hypothesis Lth : length th = N.
    Hypothesis Heq : forall i j, i < N -> j < N -> nsum N (fun l => ent (mask_h N (r_n c) (r_h c)) i l *! ent U l j) = nth j th r0 *! ent U i j.
    Hypothesis Hun : forall j, j < N -> nsum N (fun l => cj (ent U l j) *! ent U l j) = r1.
    Let inds := firstn k (sort_inds which th).
    Hypothesis Hxs : get_vectors (r_v c) U inds = Val xs.
    Let ix j := nth j inds 0.
    Let vals := map (fun i => nth i th r0) inds.

    Lemma inds_length : length inds = k.
    Proof. unfold inds. rewrite firstn_length, sort_inds_length. lia. Qed.
    Lemma ix_nth j : j < k -> ix j = nth j (sort_inds which th) 0.
    Proof. intros Hj. unfold ix, inds. apply firstn_nth. exact Hj. Qed.
    Lemma ix_lt j : j < k -> ix j < N.
    Proof. intros Hj. rewrite ix_nth by exact Hj. rewrite <- Lth. apply (@sort_inds_lt K which). apply nth_In. rewrite sort_inds_length. lia. Qed.
    Lemma vals_nth j : j < k -> nth j vals r0 = nth (ix j) th r0.
    Proof.
      intros Hj. unfold vals. rewrite (nth_indep _ r0 (nth 0 th r0)) by (rewrite map_length, inds_length; exact Hj).
      rewrite (map_nth (fun i => nth i th r0)). reflexivity.
    Qed.
    Lemma vals_length : length vals = k.
    Proof. unfold vals. rewrite map_length. apply inds_length. Qed.
    Lemma xs_length : length xs = k.
    Proof. destruct (get_vectors_ok Hxs) as [E _]. rewrite E. apply inds_length. Qed.
    Lemma col_good j : j < k -> nth j vals r0 <> r0 \/ r_n c = N -> good_col N (r_n c) (r_h c) U (nth j vals r0) (ix j).
    Proof.
      intros Hj Hor. split; [|split; [apply Hun, ix_lt, Hj|exact Hor]]. intros i Hi. rewrite vals_nth by exact Hj. apply Heq; [exact Hi|apply ix_lt, Hj].
    Qed.
    Lemma xs_nth j : j < k -> nth j vals r0 <> r0 \/ r_n c = N -> nth j xs vz = col N (r_v c) U (ix j).
    Proof.
      intros Hj Hor. destruct (get_vectors_ok Hxs) as [_ E]. rewrite (g_len G) in E. apply E; [rewrite inds_length; exact Hj|].
      assert (HN : 0 < N) by lia.
      destruct (col_ritz Hlin (g_len G) (g_n G) (g_fac G) HN (col_good Hj Hor)) as (_ & Q & _). exact Q.
    Qed.
    Lemma fin_ritz j : j < k -> nth j vals r0 <> r0 \/ r_n c = N -> ritz_approx A (firstn (r_n c) (r_v c)) f (nth j vals r0) (nth j xs vz).
    Proof.
      intros Hj Hor. rewrite (xs_nth Hj Hor). assert (HN : 0 < N) by lia. exact (col_ritz Hlin (g_len G) (g_n G) (g_fac G) HN (col_good Hj Hor)).
    Qed.
    Lemma fin_sorted i j : sortable which th -> i < j -> j < k -> before which (nth i vals r0) (nth j vals r0).
    Proof.
      intros S Hij Hj. rewrite !vals_nth, !ix_nth by lia. apply sort_inds_sorted; [exact S|exact Hij|lia].
    Qed.
    Lemma fin_on i j : (forall i j, i < N -> j < N -> nsum N (fun l => cj (ent U l i) *! ent U l j) = delta_ i j) -> i < k -> j < k ->
      nth i vals r0 <> r0 \/ r_n c = N -> nth j vals r0 <> r0 \/ r_n c = N -> ip (nth i xs vz) (nth j xs vz) = delta_ i j.
    Proof.
      intros Un Hi Hj Ho Ho'. rewrite (xs_nth Hi Ho), (xs_nth Hj Ho').
      assert (HN : 0 < N) by lia. rewrite (col_ip (g_len G) (g_n G) (g_fac G) HN (col_good Hi Ho) (col_good Hj Ho')).
      rewrite Un by (apply ix_lt; assumption). unfold delta_. rewrite !ix_nth by assumption.
      destruct (Nat.eqb_spec i j) as [->|Hne]; [rewrite Nat.eqb_refl; reflexivity|].
      destruct (Nat.eqb_spec (nth i (sort_inds which th) 0) (nth j (sort_inds which th) 0)) as [E|E]; [|reflexivity].
      exfalso. apply Hne. apply (proj1 (NoDup_nth (sort_inds which th) 0) (sort_inds_nodup which th)); [rewrite sort_inds_length; lia|rewrite sort_inds_length; lia|exact E].
    Qed.
  End Fin.

  Lemma fin_cases init c f : goodf A N k tol init c f -> r_tie c = false ->
    (r_ar c = true -> shorter f tol) /\ (r_conv c = true -> r_n c = k) /\ (r_ar c = false -> r_conv c = false -> r_n c = N).
  Proof.
    intros G T. split; [exact (g_ar G)|]. split; [exact (g_conv G)|]. intros C1 C2. exact (proj2 (g_go G C1) C2).
  Qed.

  Lemma eigs_main init size maxiter vals xs numits c : linear A -> qr_contract qr -> eig_contract eig -> 0 < k -> k < N ->
    jax_eigs A qr eig eps N k which tol size maxiter init = Val (vals, xs, numits, c) -> r_tie c = false ->
    exists kv H f, length kv = numits /\ numits <= N /\ arnoldi_fac A kv H f /\
      (0 < numits -> exists shifts a, filter_ A shifts init = vs a (nth 0 kv vz)) /\
      (r_ar c = true -> shorter f tol) /\ (r_conv c = true -> numits = k) /\ (r_ar c = false -> r_conv c = false -> numits = N) /\
      length vals = k /\ length xs = k /\ (forall i j, i < j -> j < k -> before which (nth i vals r0) (nth j vals r0)) /\
      forall j, j < k -> nth j vals r0 <> r0 \/ numits = N -> ritz_approx A kv f (nth j vals r0) (nth j xs vz).
  Proof.
    intros Hlin Hqr Heig Hk0 HkN E T. unfold jax_eigs in E.
    destruct (match which with LR | LM => false | _ => true end) eqn:Ew; [discriminate|].
    destruct (N <? k); [discriminate|]. unfold ir_arnoldi in E. rewrite Ew in E.
    destruct (negb _); [discriminate|].
    destruct (arnoldi_fact A init _ _ 0 N tol) as [[[[[[Vm Hm] rs] norm] it] ar]| |] eqn:Ea; cbn [obind] in E; try discriminate.
    set (c0 := RC Vm Hm (vs norm rs) it ar false (tie tol norm)) in E.
    assert (G0 : good A N k tol init c0).
    { intros T0. destruct (arnoldi_fact_inv (repeat_length vz N) (square_mkmx N (fun _ _ => r0)) (Nat.le_0_l N) (fac0 (repeat vz N) (mkmx N N (fun _ _ => r0)) init) Ea)
        as (I1 & I2 & -> & I4 & I5 & I6 & _ & f' & I).
      exists f'. unfold c0. change (tie tol norm) with (false || tie tol norm). refine (from_ainv k I2 I4 I _ (t := false) T0).
      intros Hp. destruct (I6 eq_refl Hp) as (a & Ha & Ev). exists [], (cinv a). cbn [filter_ fold_left]. unfold filter_. cbn [fold_left].
      rewrite Ev, vs_mul, cinv_l, vs_1 by exact Ha. reflexivity. }
    destruct (outer_loop _ _ c0) as [c1| |] eqn:El; cbn [obind] in E; try discriminate.
    pose proof (outer_loop_good (fun c c' => @outer_arnoldi_good K V A Hlin qr Hqr eig eps N k which tol Hk0 HkN init Heig c c') G0 El) as G1.
    unfold ir_finish in E. destruct (eig _) as [[th U]|] eqn:Ee; cbn [ofopt obind fst snd] in E; [|discriminate].
    destruct (get_vectors (r_v c1) U _) as [ys| |] eqn:Eg; cbn [obind] in E; try discriminate. injection E as <- <- <- <-.
    destruct (G1 T) as [f G]. pose proof (Heig _ _ Ee) as (Lth & E1 & E2). unfold mask_h in Lth, E1, E2. rewrite mkmx_length in Lth, E1, E2. fold (mask_h N (r_n c1) (r_h c1)) in E1.
    destruct (fin_cases G T) as (C1 & C2 & C3).
    exists (firstn (r_n c1) (r_v c1)), (r_h c1), f. pose proof (g_n G) as Hn. pose proof (g_len G) as Lv.
    split; [rewrite firstn_length; lia|]. split; [exact Hn|]. split; [apply fac_arnoldi; [lia|exact (g_fac G)]|].
    split; [intros Hp; rewrite firstn_nth by exact Hp; exact (g_first G Hp)|].
    split; [exact C1|]. split; [exact C2|]. split; [exact C3|].
    split; [eapply vals_length; eassumption|]. split; [eapply xs_length; eassumption|]. split.
    - intros i j Hij Hj. eapply fin_sorted; try eassumption. destruct which; try exact Logic.I; discriminate.
    - intros j Hj Hor. eapply fin_ritz; eassumption.
  Qed.

  (** *** hermitian operators *)
  Lemma hermitian_linear : hermitian A -> linear A.
  Proof.
    intros herm. split.
    - intros x y. apply vec_ext. intros z. rewrite ip_add, !herm, ip_add. reflexivity.
    - intros a x. apply vec_ext. intros z. rewrite ip_vs, !herm, ip_vs. reflexivity.
  Qed.
  Lemma eigen_real n (M : mx K) th U j : hermitian_mx n M -> eigen_ok n M (th, U) -> j < n -> cj (nth j th r0) = nth j th r0.
  Proof.
    intros Hh (_ & E1 & E2 & _) Hj.
    assert (E : nth j th r0 = nsum n (fun i => nsum n (fun l => cj (ent U i j) *! (ent M i l *! ent U l j)))).
    { rewrite (@nsum_ext K n _ (fun i => nth j th r0 *! (cj (ent U i j) *! ent U i j))).
      - rewrite nsum_mul_l, E2 by exact Hj. unfold delta_. rewrite Nat.eqb_refl. ring.
      - intros i Hi. rewrite nsum_mul_l, E1 by assumption. ring. }
    rewrite E at 1. symmetry. rewrite E at 1. rewrite cj_nsum.
    rewrite (@nsum_ext K n (fun x => cj _) (fun i => nsum n (fun l => cj (ent U l j) *! (ent M l i *! ent U i j)))).
    - rewrite nsum_swap. reflexivity.
    - intros i Hi. rewrite cj_nsum. apply nsum_ext. intros l Hl. rewrite !cj_mul, cj_inv, <- (Hh l i) by assumption. ring.
  Qed.
  Lemma mask_herm init c f : hermitian A -> goodf A N k tol init c f -> hermitian_mx N (mask_h N (r_n c) (r_h c)).
  Proof.
    intros herm G i j Hi Hj. unfold mask_h. rewrite !ent_mkmx by assumption. rewrite andb_comm.
    destruct (Nat.ltb_spec j (r_n c)), (Nat.ltb_spec i (r_n c)); cbn [andb]; try (symmetry; apply cj_0).
    apply (hermitian_entry herm (g_fac G)); assumption.
  Qed.
  Lemma fac_factorised (Vm : list V) H f : hermitian A -> length Vm = N -> fac A N (vat Vm) (ent H) f ->
    factorised A Vm (mask_h N N H) /\ (0 < N -> residual A Vm (mask_h N N H) = f).
  Proof.
    intros herm L F.
    assert (El : forall j, j < N -> lin (fun i => ent (mask_h N N H) i j) Vm = vsum N (fun i => vs (ent H i j) (nth i Vm vz))).
    { intros j Hj. unfold lin. rewrite L. apply vsum_ext. intros i Hi. unfold mask_h. rewrite ent_mkmx by assumption.
      destruct (Nat.ltb_spec i N), (Nat.ltb_spec j N); try lia. reflexivity. }
    assert (Er : 0 < N -> residual A Vm (mask_h N N H) = f).
    { intros HN. unfold residual. rewrite L, El, (f_eq F) by lia. destruct (Nat.eqb_spec (S (N - 1)) N); [|lia].
      apply vec_ext. intros z. rewrite ip_sub, ip_add. ring. }
    split; [|exact Er]. constructor.
    - intros i j Hi Hj. rewrite L in Hi, Hj. apply (f_on F); assumption.
    - intros j Hj. rewrite L in Hj. rewrite El, (f_eq F) by lia. destruct (Nat.eqb_spec (S j) N); [lia|]. apply va_z.
    - intros i Hi. rewrite L in Hi. rewrite Er by lia. apply (f_perp F). exact Hi.
  Qed.
  Lemma ritz_bound (kv : list V) (T : mx K) th U y j : hermitian A -> factorised A kv T -> eigen_ok (length kv) T (th, U) ->
    sortable which th -> in_span kv y -> j < length kv ->
    (forall i, i < j -> ip (ritz kv U (nth i (sort_inds which th) 0)) y = r0) -> bounds which A (nth (nth j (sort_inds which th) 0) th r0) y.
  Proof.
    intros herm Hf He Hs [c Ey] Hj Hp. set (n := length kv) in *. set (e := fun l => ip (ritz kv U l) y).
    assert (Lt : length th = n) by (destruct He as (E & _); exact E).
    assert (Ey' : y = vsum n (fun l => vs (e l) (ritz kv U l))) by (unfold e; rewrite Ey; apply (in_ritz Hf He)).
    assert (E1 : ip y y = nsum n (fun l => cj (e l) *! e l)).
    { rewrite Ey' at 1. rewrite ip_vsuml. apply nsum_ext. intros l Hl. rewrite ip_vsl. reflexivity. }
    assert (E2 : ip y (A y) = nsum n (fun l => nth l th r0 *! (cj (e l) *! e l))).
    { rewrite Ey' at 2. rewrite (A_vsum herm), ip_vsum. apply nsum_ext. intros l Hl.
      rewrite (A_vs herm), ip_vs, (ritz_eigen herm Hf He Hl), ip_add, !ip_vs.
      rewrite (ip_cj (ritz kv U l) y). fold (e l). rewrite Ey at 1. rewrite (perp_lin Hf). ring. }
    set (t := nth (nth j (sort_inds which th) 0) th r0).
    assert (P : forall l, l < n -> e l = r0 \/ (match which with LA => cpos (t -! nth l th r0) | SA => cpos (nth l th r0 -! t) | _ => True end)).
    { intros l Hl. assert (Hin : In l (sort_inds which th)).
      { eapply Permutation_in; [apply sort_inds_perm|]. apply in_seq. lia. }
      destruct (In_nth _ _ 0 Hin) as (p & Hp1 & Hp2). rewrite sort_inds_length in Hp1.
      destruct (Nat.lt_trichotomy p j) as [C|[C|C]].
      - left. unfold e. rewrite <- Hp2. apply Hp. exact C.
      - right. subst p. unfold t. rewrite Hp2. destruct which; try exact Logic.I; (match goal with |- cpos ?x => replace x with (r0 : K) by ring end; apply cpos_0).
      - right. pose proof (sort_inds_sorted Hs C Hp1) as Q. rewrite Hp2 in Q. fold t in Q. destruct which; try exact Logic.I; exact Q. }
    unfold bounds. destruct which; try exact Logic.I.
    - rewrite E1, E2, <- nsum_mul_l. unfold nsum. rewrite cop_lsum, <- lsum_add. apply cpos_lsum. intros l Hl. apply in_seq in Hl.
      match goal with |- cpos ?x => replace x with ((t -! nth l th r0) *! (cj (e l) *! e l)) by ring end.
      destruct (P l ltac:(lia)) as [Z|Z].
      + rewrite Z. match goal with |- cpos ?x => replace x with (r0 : K) by ring end. apply cpos_0.
      + apply cpos_mul; [exact Z|apply cpos_sq].
    - rewrite E1, E2, <- nsum_mul_l. unfold nsum. rewrite cop_lsum, <- lsum_add. apply cpos_lsum. intros l Hl. apply in_seq in Hl.
      match goal with |- cpos ?x => replace x with ((nth l th r0 -! t) *! (cj (e l) *! e l)) by ring end.
      destruct (P l ltac:(lia)) as [Z|Z].
      + rewrite Z. match goal with |- cpos ?x => replace x with (r0 : K) by ring end. apply cpos_0.
      + apply cpos_mul; [exact Z|apply cpos_sq].
  Qed.

  Lemma eigsh_main init size maxiter vals xs numits c : hermitian A -> qr_contract qr -> eigh_contract eig -> 0 < k -> k < N ->
    jax_eigsh A qr eig eps N k which tol size maxiter init = Val (vals, xs, numits, c) -> r_tie c = false ->
    exists kv H f, length kv = numits /\ numits <= N /\ arnoldi_fac A kv H f /\
      (0 < numits -> exists shifts a, filter_ A shifts init = vs a (nth 0 kv vz)) /\
      (r_ar c = true -> shorter f tol) /\ (r_conv c = true -> numits = k) /\ (r_ar c = false -> r_conv c = false -> numits = N) /\
      length vals = k /\ length xs = k /\ (forall i j, i < j -> j < k -> before which (nth i vals r0) (nth j vals r0)) /\
      (forall j, j < k -> nth j vals r0 <> r0 \/ numits = N -> ritz_approx A kv f (nth j vals r0) (nth j xs vz)) /\
      (forall i j, i < k -> j < k -> nth i vals r0 <> r0 \/ numits = N -> nth j vals r0 <> r0 \/ numits = N ->
         ip (nth i xs vz) (nth j xs vz) = delta_ i j) /\
      (numits = N -> forall j y, j < k -> in_span kv y -> (forall i, i < j -> ip (nth i xs vz) y = r0) -> bounds which A (nth j vals r0) y).
  Proof.
    intros herm Hqr Heig Hk0 HkN E T. pose proof (hermitian_linear herm) as Hlin. unfold jax_eigsh in E.
    destruct (match which with LR => true | _ => false end) eqn:Ew; [discriminate|].
    destruct (N <? k); [discriminate|]. unfold ir_lanczos in E. rewrite Ew in E.
    destruct ((N <=? k) && _); [discriminate|]. destruct (size <? k); [discriminate|].
    destruct (lanczos_fact A init _ _ _ 0 N tol) as [[[[[[[Vm al] be] rs] norm] it] ar]| |] eqn:Ea; cbn [obind] in E; try discriminate.
    set (c0 := RC Vm (hmat al be) (vs norm rs) it ar false (tie tol norm)) in E.
    assert (G0 : good A N k tol init c0).
    { intros T0. destruct (lanczos_fact_inv herm (repeat_length vz N) (repeat_length r0 N) (repeat_length r0 (N - 1)) (Nat.le_0_l N) (fac0 (repeat vz N) (hmat (repeat r0 N) (repeat r0 (N - 1))) init) Ea)
        as (I1 & I2 & -> & I4 & I5 & I6 & _ & f' & I).
      exists f'. unfold c0. change (tie tol norm) with (false || tie tol norm). refine (from_ainv k I2 I4 (la_inv I) _ (t := false) T0).
      intros Hp. destruct (I6 eq_refl Hp) as (a & Ha & Ev). exists [], (cinv a). unfold filter_. cbn [fold_left].
      rewrite Ev, vs_mul, cinv_l, vs_1 by exact Ha. reflexivity. }
    destruct (outer_loop _ _ c0) as [c1| |] eqn:El; cbn [obind] in E; try discriminate.
    pose proof (outer_loop_good (fun c c' => @outer_lanczos_good K V A Hlin qr Hqr eig eps N k which tol Hk0 HkN init herm Heig c c') G0 El) as G1.
    unfold ir_finish in E. destruct (eig _) as [[th U]|] eqn:Ee; cbn [ofopt obind fst snd] in E; [|discriminate].
    destruct (get_vectors (r_v c1) U _) as [ys| |] eqn:Eg; cbn [obind] in E; try discriminate. injection E as <- <- <- <-.
    destruct (G1 T) as [f G]. pose proof (mask_herm herm G) as Hh.
    assert (Lm : length (mask_h N (r_n c1) (r_h c1)) = N) by apply mkmx_length.
    assert (He : eigen_ok N (mask_h N (r_n c1) (r_h c1)) (th, U)).
    { rewrite <- Lm at 1. apply Heig; [rewrite Lm; exact Hh|exact Ee]. }
    pose proof He as (Lth & E1 & E2 & _).
    assert (E3 : forall j, j < N -> nsum N (fun l => cj (ent U l j) *! ent U l j) = r1).
    { intros j Hj. rewrite E2 by exact Hj. unfold delta_. rewrite Nat.eqb_refl. reflexivity. }
    assert (Hs : sortable which th).
    { assert (R : forall x, In x th -> cj x = x).
      { intros x Hx. destruct (In_nth _ _ r0 Hx) as (j & Hj & <-). rewrite Lth in Hj. exact (eigen_real Hh He Hj). }
      destruct which; try exact Logic.I; exact R. }
    destruct (fin_cases G T) as (C1 & C2 & C3).
    exists (firstn (r_n c1) (r_v c1)), (r_h c1), f. pose proof (g_n G) as Hn. pose proof (g_len G) as Lv.
    split; [rewrite firstn_length; lia|]. split; [exact Hn|]. split; [apply fac_arnoldi; [lia|exact (g_fac G)]|].
    split; [intros Hp; rewrite firstn_nth by exact Hp; exact (g_first G Hp)|].
    split; [exact C1|]. split; [exact C2|]. split; [exact C3|].
    split; [eapply vals_length; eassumption|]. split; [eapply xs_length; eassumption|]. split; [|split; [|split]].
    - intros i j Hij Hj. eapply fin_sorted; eassumption.
    - intros j Hj Hor. eapply fin_ritz; eassumption.
    - intros i j Hi Hj Ho Ho'. eapply fin_on; eassumption.
    - intros En j y Hj Hy Hp. rewrite firstn_all2 in Hy by lia.
      pose proof (g_fac G) as F. rewrite En in F, He. destruct (fac_factorised herm Lv F) as [Hf _].
      erewrite vals_nth by eassumption. erewrite ix_nth by eassumption.
      apply (@ritz_bound (r_v c1) (mask_h N N (r_h c1)) th U y j herm Hf); try assumption; [rewrite Lv; exact He|lia|].
      intros i Hi. rewrite <- (Hp i Hi). f_equal. symmetry. erewrite xs_nth; try eassumption; [|lia|right; exact En].
      erewrite ix_nth by (try eassumption; lia). unfold col, ritz, lin. rewrite Lv. reflexivity.
  Qed.
End Final.
