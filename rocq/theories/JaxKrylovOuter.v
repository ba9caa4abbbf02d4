(** * JaxKrylovOuter: the outer loops of the implicitly restarted methods *)
From Coq Require Import Field Permutation.
From Verif Require Import Prelude Algebra Krylov KrylovFacts KrylovSpec KrylovRitz Gmres GmresSpec GmresFacts GmresMain
  JaxKrylov JaxKrylovSpec JaxKrylovFacts JaxKrylovArn JaxKrylovShift JaxKrylovSort JaxKrylovMain.
Set Implicit Arguments.
Unset Strict Implicit.

Section Outer.
  Context {K : cfd} {V : ips K}.
  Add Field Kf : (cfth K).
  Variable A : V -> V.
  Hypothesis Hlin : linear A.
  Variable qr : mx K -> option (mx K * mx K).
  Hypothesis Hqr : qr_contract qr.
  Variable eig : mx K -> option (list K * mx K).
  Variables (eps : K) (N k : nat) (which : target) (tol : K).
  Hypothesis Hk0 : 0 < k.
  Hypothesis HkN : k < N.
  Variable init : V.

  Record goodf (c : rcarry) (f : V) : Prop := {
    g_len : length (r_v c) = N;
    g_sq : square N (r_h c);
    g_n : r_n c <= N;
    g_fac : fac A (r_n c) (vat (r_v c)) (ent (r_h c)) f;
    g_go : r_ar c = false -> r_f c = f /\ (r_conv c = false -> r_n c = N);
    g_ar : r_ar c = true -> shorter f tol;
    g_conv : r_conv c = true -> r_n c = k;
    g_first : 0 < r_n c -> exists shifts a, filter_ A shifts init = vs a (nth 0 (r_v c) vz)
  }.
  Definition good (c : rcarry) : Prop := r_tie c = false -> exists f, goodf c f.

  Lemma from_ainv start Vm H residual norm it t f : it <= N -> (it = N \/ clt tol norm = false) ->
    ainv A N start tol it Vm H residual norm f ->
    (0 < it -> exists shifts a, filter_ A shifts init = vs a (nth 0 Vm vz)) ->
    t || tie tol norm = false -> goodf (RC Vm H (vs norm residual) it (clt norm tol) false (t || tie tol norm)) f.
  Proof.
    intros Hit Hor I Fi Ht. apply orb_false_elim in Ht. destruct Ht as [_ Ht].
    constructor; cbn [r_v r_h r_n r_f r_ar r_conv].
    - exact (ai_len I).
    - exact (ai_sq I).
    - exact Hit.
    - exact (ai_fac I).
    - intros C. unfold tie in Ht. rewrite C in Ht. cbn [negb andb] in Ht. apply negb_false_iff in Ht.
      destruct (rs_unit (ai_res I) Ht) as [_ E]. split; [symmetry; exact E|]. intros _. destruct Hor as [?|?]; [assumption|congruence].
    - intros C. exists norm. split; [exact (rs_norm (ai_res I))|exact C].
    - discriminate.
    - exact Fi.
  Qed.
  Lemma filter_app s1 s2 x : filter_ A (s1 ++ s2) x = filter_ A s2 (filter_ A s1 x).
  Proof. unfold filter_. apply fold_left_app. Qed.

  (** what a restart starts with *)
  Lemma restart_ok c f shifts Vk Hk fk : goodf c f -> r_conv c || r_ar c = false -> length shifts = N - k ->
    shifted_qr qr (r_v c) (r_h c) (r_f c) shifts k = Val (Vk, Hk, fk) ->
    length Vk = N /\ square N Hk /\ fac A k (vat Vk) (ent Hk) fk /\ exists s a, filter_ A s init = vs a (nth 0 Vk vz).
  Proof.
    intros G C Ls E. apply orb_false_elim in C. destruct C as [C1 C2].
    destruct (g_go G C2) as [Ef En]. specialize (En C1).
    pose proof (g_fac G) as F. rewrite En, <- Ef in F.
    destruct (shifted_qr_ok Hlin Hqr (g_len G) (g_sq G) F Hk0 HkN Ls E) as (L1 & S1 & F1 & (c1 & P1) & _).
    split; [exact L1|]. split; [exact S1|]. split; [exact F1|].
    destruct (g_first G ltac:(lia)) as (s0 & a & E0). exists (s0 ++ shifts), (a *! c1).
    rewrite filter_app, E0, (filter_vs Hlin), P1, vs_mul. reflexivity.
  Qed.
  Lemma outer_loop_good body fuel : (forall c c', good c -> r_conv c || r_ar c = false -> body c = Val c' -> good c') ->
    forall c c', good c -> outer_loop body fuel c = Val c' -> good c'.
  Proof.
    intros Hb. induction fuel as [|n IH]; intros c c' G E; cbn [outer_loop] in E; [injection E as <-; exact G|].
    destruct (r_conv c || r_ar c) eqn:C; [injection E as <-; exact G|].
    destruct (body c) as [c1| |] eqn:E1; cbn [obind] in E; try discriminate. eapply IH; [eapply Hb; eassumption|exact E].
  Qed.

  Section Arnoldi.
    Hypothesis Heig : eig_contract eig.
    Lemma outer_arnoldi_good c c' : good c -> r_conv c || r_ar c = false -> outer_arnoldi A qr eig eps N k which tol c = Val c' -> good c'.
    Proof.
      intros G C E. unfold outer_arnoldi in E.
      destruct (eig (r_h c)) as [[th U]|] eqn:Ee; cbn [ofopt obind fst] in E; [|discriminate].
      destruct (shifted_qr qr (r_v c) (r_h c) (r_f c) _ k) as [[[Vk Hk] fk]| |] eqn:Es; cbn [obind] in E; try discriminate.
      destruct (nrm fk) as [beta| |] eqn:Eb; cbn [obind] in E; try discriminate.
      destruct (check_eig eig eps N k tol beta Hk) as [cv| |] eqn:Ec; cbn [obind] in E; try discriminate.
      assert (R : r_tie c = false -> length Vk = N /\ square N Hk /\ fac A k (vat Vk) (ent Hk) fk /\ exists s a, filter_ A s init = vs a (nth 0 Vk vz)).
      { intros T. destruct (G T) as [f Gf]. refine (restart_ok Gf C _ Es).
        pose proof (Heig Ee) as (L1 & _). rewrite (proj1 (g_sq Gf)) in L1. apply sort_shifts_length; lia. }
      assert (Fst : nth 0 (cut_v k Vk) vz = nth 0 Vk vz).
      { unfold cut_v. destruct k as [|k']; [lia|]. destruct Vk as [|x Vk]; reflexivity. }
      destruct cv.
      - injection E as <-. intros T. cbn [r_tie] in T. destruct (R T) as (L1 & S1 & F1 & Fi). exists fk.
        destruct (cut_ok L1 S1 (Nat.lt_le_incl _ _ HkN) F1) as (L2 & S2 & F2). constructor; cbn [r_v r_h r_n r_f r_ar r_conv]; try assumption; try lia; auto; try discriminate.
        + intros _. split; [reflexivity|discriminate].
        + intros _. rewrite Fst. exact Fi.
      - destruct (arnoldi_fact A fk (cut_v k Vk) (cut_h k Hk) k N tol) as [[[[[[Vm Hm] rs] norm] it] ar]| |] eqn:Ea; cbn [obind] in E; try discriminate.
        injection E as <-. intros T. cbn [r_tie] in T. destruct (orb_false_elim _ _ T) as [T1 _]. destruct (R T1) as (L1 & S1 & F1 & Fi).
        destruct (cut_ok L1 S1 (Nat.lt_le_incl _ _ HkN) F1) as (L2 & S2 & F2).
        destruct (arnoldi_fact_inv L2 S2 (Nat.lt_le_incl _ _ HkN) F2 Ea) as (I1 & I2 & -> & I4 & I5 & _ & _ & f' & I).
        exists f'. apply (from_ainv I2 I4 I); [|exact T]. intros _. rewrite I5 by exact Hk0. rewrite Fst. exact Fi.
    Qed.
  End Arnoldi.

  Section Lanczos.
    Hypothesis herm : hermitian A.
    Hypothesis Heig : eigh_contract eig.
    Lemma hermitian_entry n v h f i j : fac A n v h f -> i < n -> j < n -> h i j = cj (h j i).
    Proof.
      intros F Hi Hj. rewrite (fac_entry F Hi Hj), (fac_entry F Hj Hi). rewrite herm. apply ip_cj.
    Qed.
    Lemma tri_of n (Vk : list V) (Hk : mx K) fk :  square N Hk -> fac A k (vat Vk) (ent Hk) fk -> n = N ->
      fac A k (vat Vk) (ent (hmat (map (fun i => if i <? k then ent Hk i i else r0) (seq 0 n))
        (map (fun i => if i <? k - 1 then ent Hk (S i) i else r0) (seq 0 (n - 1))))) fk.
    Proof.
      intros Sq F ->. set (al := map _ _). set (be := map _ _).
      assert (La : length al = N) by (unfold al; rewrite map_length, seq_length; reflexivity).
      refine (fac_ext _ _ _ F).
      - reflexivity.
      - intros i j Hj Hor. destruct (Nat.lt_ge_cases (S j) i) as [C|C].
        { rewrite (f_hess F Hj C). apply hmat_tri. right. exact C. }
        assert (Hi : i < k) by (destruct Hor; lia).
        assert (D : forall a, a < k -> nth a al r0 = ent Hk a a).
        { intros a Ha. unfold al. rewrite nth_map_seq by lia. destruct (Nat.ltb_spec a k); [reflexivity|lia]. }
        assert (B : forall a, S a < k -> nth a be r0 = ent Hk (S a) a).
        { intros a Ha. unfold be. rewrite nth_map_seq by lia. destruct (Nat.ltb_spec a (k - 1)); [reflexivity|lia]. }
        destruct (Nat.lt_ge_cases (S i) j) as [C1|C1].
        { rewrite hmat_tri by (left; exact C1). rewrite (hermitian_entry F Hi Hj), (f_hess F Hi C1), cj_0. reflexivity. }
        assert (O : i = j \/ i = S j \/ j = S i) by lia. destruct O as [->|[->| ->]].
        + rewrite hmat_diag by lia. apply D, Hj.
        + rewrite hmat_sub by lia. apply B, Hi.
        + rewrite hmat_sup, B by lia. symmetry. apply (hermitian_entry F); assumption.
      - intros i j Hj Hij. apply hmat_tri. right. exact Hij.
    Qed.
    Lemma hermitian_rh n (Vm : list V) H f : fac A n (vat Vm) (ent H) f -> square n H -> hermitian_mx (length H) H.
    Proof. intros F Sq i j Hi Hj. rewrite (proj1 Sq) in Hi, Hj. apply (hermitian_entry F); assumption. Qed.
    Lemma outer_lanczos_good c c' : good c -> r_conv c || r_ar c = false -> outer_lanczos A qr eig eps N k which tol c = Val c' -> good c'.
    Proof.
      intros G C E. unfold outer_lanczos in E.
      destruct (eig (r_h c)) as [[th U]|] eqn:Ee; cbn [ofopt obind fst] in E; [|discriminate].
      destruct (shifted_qr qr (r_v c) (r_h c) (r_f c) _ k) as [[[Vk Hk] fk]| |] eqn:Es; cbn [obind] in E; try discriminate.
      destruct (nrm fk) as [beta| |] eqn:Eb; cbn [obind] in E; try discriminate.
      destruct (check_eigh eig eps k tol beta Hk) as [cv| |] eqn:Ec; cbn [obind] in E; try discriminate.
      assert (R : r_tie c = false -> length Vk = N /\ square N Hk /\ fac A k (vat Vk) (ent Hk) fk /\ exists s a, filter_ A s init = vs a (nth 0 Vk vz)).
      { intros T. destruct (G T) as [f Gf]. refine (restart_ok Gf C _ Es).
        pose proof (orb_false_elim _ _ C) as [C1 C2]. destruct (g_go Gf C2) as [_ En]. specialize (En C1).
        assert (Hh : hermitian_mx (length (r_h c)) (r_h c)).
        { apply (@hermitian_rh N (r_v c) (r_h c) f); [|exact (g_sq Gf)]. pose proof (g_fac Gf) as F. rewrite En in F. exact F. }
        pose proof (Heig Hh Ee) as (L1 & _). rewrite (proj1 (g_sq Gf)) in L1. apply sort_shifts_length; lia. }
      set (al := map _ (seq 0 (length Hk))) in E. set (be := map _ (seq 0 (length Hk - 1))) in E.
      assert (R2 : r_tie c = false -> length al = N /\ length be = N - 1 /\ fac A k (vat Vk) (ent (hmat al be)) fk).
      { intros T. destruct (R T) as (_ & S1 & F1 & _). unfold al, be. rewrite !map_length, !seq_length, (proj1 S1).
        split; [reflexivity|]. split; [reflexivity|]. apply tri_of; auto. }
      destruct cv.
      - injection E as <-. intros T. cbn [r_tie] in T. destruct (R T) as (L1 & S1 & _ & Fi). destruct (R2 T) as (La & Lb & F1). exists fk.
        constructor; cbn [r_v r_h r_n r_f r_ar r_conv]; try assumption; try lia; auto; try discriminate.
        + rewrite <- La. apply hmat_sq.
        + intros _. split; [reflexivity|discriminate].
      - destruct (lanczos_fact A fk Vk al be k N tol) as [[[[[[[Vm al'] be'] rs] norm] it] ar]| |] eqn:Ea; cbn [obind] in E; try discriminate.
        injection E as <-. intros T. cbn [r_tie] in T. destruct (orb_false_elim _ _ T) as [T1 _]. destruct (R T1) as (L1 & _ & _ & Fi).
        destruct (R2 T1) as (La & Lb & F1).
        destruct (lanczos_fact_inv herm L1 La Lb (Nat.lt_le_incl _ _ HkN) F1 Ea) as (I1 & I2 & -> & I4 & I5 & _ & _ & f' & I).
        exists f'. apply (from_ainv I2 I4 (la_inv I)); [|exact T]. intros _. rewrite I5 by exact Hk0. exact Fi.
    Qed.
  End Lanczos.
End Outer.
