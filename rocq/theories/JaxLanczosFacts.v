(** * JaxLanczosFacts: the loop of [jax_lanczos] *)
From Coq Require Import Field.
From Verif Require Import Prelude Algebra Krylov KrylovFacts KrylovSpec KrylovLanczos KrylovRitz KrylovMain Gmres GmresFacts
  JaxKrylov JaxKrylovFacts JaxLanczos.
Set Implicit Arguments.
Unset Strict Implicit.

Section Loop.
  Context {K : cfd} {V : ips K}.
  Add Field Kf : (cfth K).
  Variable A : V -> V.
  Hypothesis herm : hermitian A.
  Variables (ncv : nat) (landelta : K) (reortho : bool).
  Notation vn l := (fun i => nth i l vz).
  Notation kn l := (fun i => nth i l r0).

  (** m rounds are over: w is the next vector before its normalisation *)
  Record jinv (init : V) (kv : list V) (al be : list K) (m : nat) (w : V) : Prop := {
    ji_kv : length kv = ncv + 2;
    ji_al : length al = ncv;
    ji_be : length be = S ncv;
    ji_m : m <= ncv;
    ji_0 : nth 0 kv vz = vz;
    ji_b0 : nth 0 be r0 = r1;
    ji_li : linv A m (fun j => nth (S j) kv vz) (kn al) (fun j => nth (S j) be r0) w;
    ji_first : m = 0 -> w = init;
    ji_span : 0 < m -> nth 1 kv vz = vs (cinv (nth 1 be r0)) init /\ nth 1 be r0 *! nth 1 be r0 = ip init init;
    ji_next : nth (S m) kv vz = (if reortho then match m with 0 => init | S l => A (nth m kv vz) end else w);
    ji_alz : forall j, m <= j -> nth j al r0 = r0;
    ji_bez : forall j, m < j -> nth j be r0 = r0;
    ji_bep : forall j, j <= m -> cpos (nth j be r0)
  }.

  Lemma put_nth T (l : list T) i x d j : nth j (put l i x) d = if (j =? i) && (j <? length l) then x else nth j l d.
  Proof.
    destruct (Nat.eq_dec j i) as [->|N].
    - rewrite Nat.eqb_refl. simpl. destruct (i <? length l) eqn:E.
      + apply put_same. apply Nat.ltb_lt. exact E.
      + apply Nat.ltb_ge in E. rewrite !nth_overflow; [reflexivity|exact E|rewrite put_length; exact E].
    - replace (j =? i) with false by (symmetry; apply Nat.eqb_neq; exact N). apply put_other. congruence.
  Qed.

  (** the vector of this round, orthogonalised or not, is the next vector of the recurrence *)
  Lemma ortho_next init kv al be m w : jinv init kv al be m w ->
    (if reortho then fst (gram_schmidt (mask m kv) (nth (S m) kv vz)) else nth (S m) kv vz) = w.
  Proof.
    intros J. rewrite (ji_next J). destruct reortho; [|reflexivity].
    pose proof (li_on (ji_li J)) as Hon. pose proof (ji_m J) as Hm. pose proof (ji_kv J) as Lk.
    assert (Hmo : ortho (mask m kv)).
    { intros i j Hi Hj. rewrite !mask_nth. split.
      - intros N. destruct i as [|i], j as [|j]; try lia; simpl; rewrite ?(ji_0 J).
        + apply ip_0l.
        + apply ip_0.
        + change (match m with 0 => false | S m' => i <=? m' end) with (S i <=? m). change (match m with 0 => false | S m' => j <=? m' end) with (S j <=? m).
          destruct (S i <=? m) eqn:E1, (S j <=? m) eqn:E2; rewrite ?ip_0, ?ip_0l; try reflexivity.
          apply Nat.leb_le in E1, E2. rewrite Hon by lia. unfold delta_. replace (i =? j) with false by (symmetry; apply Nat.eqb_neq; lia). reflexivity.
      - destruct (i <=? m) eqn:E1; [|right; reflexivity]. apply Nat.leb_le in E1. destruct i as [|i]; [right; apply (ji_0 J)|].
        left. rewrite Hon by lia. unfold delta_. rewrite Nat.eqb_refl. reflexivity. }
    destruct (gram_schmidt (mask m kv) match m with 0 => init | S l => A (nth m kv vz) end) as [w' ov] eqn:G.
    destruct (gram_schmidt_ok Hmo G) as (-> & _ & _). cbn [fst]. rewrite proj_mask by lia.
    apply vec_ext. intros z. rewrite ip_sub, ip_vsum. rewrite nsum_shift, ip_vs, (ji_0 J), ip_0.
    destruct m as [|l].
    - rewrite (ji_first J eq_refl). simpl. unfold nsum. simpl. ring.
    - rewrite (li_res (ji_li J) eq_refl), !ip_sub, ip_vs.
      pose proof (ji_li J) as Hi.
      assert (Es : nsum (S l) (fun i => ip z (vs (ip (nth (S i) kv vz) (A (nth (S l) kv vz))) (nth (S i) kv vz)))
        = nth l al r0 *! ip z (nth (S l) kv vz) +! ip z (prev (fun j => nth (S j) kv vz) (fun j => nth (S j) be r0) l)).
      { pose proof (linv_orth herm Hi) as Ho.
        assert (Ec : forall i, i < S l -> ip (nth (S i) kv vz) (A (nth (S l) kv vz)) =
          (if i =? l then nth l al r0 else r0) +! (if S i =? l then nth (S l) be r0 else r0)).
        { intros i Hl. specialize (Ho i Hl). rewrite (li_res Hi eq_refl), !ip_sub, ip_vs, (Hon i l) in Ho by lia. unfold delta_ in Ho.
          set (x := ip (nth (S i) kv vz) (A (nth (S l) kv vz))) in *.
          assert (Hp : ip (nth (S i) kv vz) (prev (fun j => nth (S j) kv vz) (fun j => nth (S j) be r0) l) = if S i =? l then nth (S l) be r0 else r0).
          { destruct l as [|p]; simpl prev; [rewrite ip_0; destruct (S i =? 0) eqn:E; [discriminate|reflexivity]|].
            rewrite ip_vs, Hon by lia. unfold delta_. change (S i =? S p) with (i =? p). destruct (i =? p); ring. }
          rewrite Hp in Ho. clear Hp. transitivity (x -! (x -! nth l al r0 *! (if i =? l then r1 else r0) -! (if S i =? l then nth (S l) be r0 else r0))).
          - rewrite Ho. ring.
          - destruct (i =? l), (S i =? l); ring. }
        rewrite nsum_S. rewrite ip_vs, Ec by lia. rewrite Nat.eqb_refl. replace (S l =? l) with false by (symmetry; apply Nat.eqb_neq; lia).
        destruct l as [|p].
        - simpl. rewrite ip_0. unfold nsum. simpl. ring.
        - rewrite nsum_S, ip_vs, Ec by lia. rewrite Nat.eqb_refl. replace (p =? S p) with false by (symmetry; apply Nat.eqb_neq; lia).
          simpl prev. rewrite ip_vs.
          assert (Ez : nsum p (fun i => ip z (vs (ip (nth (S i) kv vz) (A (nth (S (S p)) kv vz))) (nth (S i) kv vz))) = r0).
          { rewrite <- (@nsum0 K p). apply nsum_ext. intros i Hl. rewrite ip_vs, Ec by lia.
            replace (i =? S p) with false by (symmetry; apply Nat.eqb_neq; lia).
            replace (S i =? S p) with false by (symmetry; apply Nat.eqb_neq; lia). ring. }
          rewrite Ez. ring. }
      rewrite Es. ring.
  Qed.

  Lemma body_ok init kv al be m w kv' al' be' i' : jinv init kv al be m w -> m < ncv ->
    body_lanczos A reortho kv al be (S m) = Val (kv', al', be', i') ->
    i' = S (S m) /\ exists w', jinv init kv' al' be' (S m) w' /\ nth (S m) be' r0 *! nth (S m) be' r0 = ip w w /\
      csqrt (ip w w) = Some (nth (S m) be' r0).
  Proof.
    intros J Hm H. unfold body_lanczos in H. replace (S m - 1) with m in H by lia. rewrite (ortho_next J) in H.
    apply obind_inv in H. destruct H as (n & En & H). apply obind_inv in H. destruct H as (u & Eu & H).
    injection H as <- <- <- <-. split; [reflexivity|].
    destruct (nrm_ok En) as [Hn Pn]. destruct (vdiv_inv Eu) as [Nz Hu].
    pose proof (ji_kv J) as Lk. pose proof (ji_al J) as La. pose proof (ji_be J) as Lb.
    set (nxt := if reortho then A u else _). set (kv' := put (put kv (S m) u) (S (S m)) nxt).
    assert (Ek : forall j, j < S m -> nth j kv' vz = nth j kv vz).
    { intros j Hj. unfold kv'. rewrite !put_nth. replace (j =? S (S m)) with false by (symmetry; apply Nat.eqb_neq; lia).
      replace (j =? S m) with false by (symmetry; apply Nat.eqb_neq; lia). reflexivity. }
    assert (Eu' : nth (S m) kv' vz = u).
    { unfold kv'. rewrite put_nth. replace (S m =? S (S m)) with false by (symmetry; apply Nat.eqb_neq; lia). cbn [andb].
      rewrite put_same by lia. reflexivity. }
    assert (Ex : nth (S (S m)) kv' vz = nxt) by (unfold kv'; rewrite put_same by (rewrite put_length; lia); reflexivity).
    assert (Ea : nth m (put al m (ip u (A u))) r0 = ip u (A u)) by (apply put_same; lia).
    assert (Eb : nth (S m) (put be (S m) n) r0 = n) by (apply put_same; lia).
    assert (Eao : forall j, j <> m -> nth j (put al m (ip u (A u))) r0 = nth j al r0) by (intros j Hj; apply put_other; congruence).
    assert (Ebo : forall j, j <> S m -> nth j (put be (S m) n) r0 = nth j be r0) by (intros j Hj; apply put_other; congruence).
    assert (Hl : linv A m (fun j => nth (S j) kv' vz) (kn (put al m (ip u (A u)))) (fun j => nth (S j) (put be (S m) n) r0) w).
    { apply (linv_ext (v := fun j => nth (S j) kv vz) (d := kn al) (o := fun j => nth (S j) be r0)); [|exact (ji_li J)].
      intros i Hi. rewrite Ek, Eao, Ebo by lia. auto. }
    eexists. split; [|split; [rewrite Eb; exact Hn|rewrite Eb; unfold nrm, ofopt in En; destruct (csqrt (ip w w)); congruence]].
    constructor.
    - unfold kv'. rewrite !put_length. exact Lk.
    - rewrite put_length. exact La.
    - rewrite put_length. exact Lb.
    - lia.
    - rewrite Ek by lia. apply (ji_0 J).
    - rewrite Ebo by lia. apply (ji_b0 J).
    - apply (linv_step herm Hl Eu' Hu Ea Eb Hn (cpos_real Pn) Nz).
    - intros E. discriminate.
    - intros _. destruct m as [|l].
      + rewrite Eu', Eb, Hu, Hn, (ji_first J eq_refl). auto.
      + rewrite Ek, Ebo by lia. apply (ji_span J). lia.
    - rewrite Ex. unfold nxt. destruct reortho; [rewrite Eu'; reflexivity|]. rewrite Ea. f_equal.
      destruct m as [|l].
      + rewrite (ji_0 J). simpl. apply vs_z.
      + cbn [prev]. rewrite Eb, Ek by lia. reflexivity.
    - intros j Hj. rewrite Eao by lia. apply (ji_alz J). lia.
    - intros j Hj. rewrite Ebo by lia. apply (ji_bez J). lia.
    - intros j Hj. destruct (Nat.eq_dec j (S m)) as [->|N]; [rewrite Eb; exact Pn|]. rewrite Ebo by exact N. apply (ji_bep J). lia.
  Qed.

  Lemma loop_jinv init fuel : forall kv al be m w kv' al' be' i', jinv init kv al be m w -> ncv <= m + fuel ->
    jl_loop A ncv landelta reortho fuel kv al be (S m) = Val (kv', al', be', i') ->
    exists m' w', i' = S m' /\ m <= m' /\ jinv init kv' al' be' m' w' /\ (m' < ncv -> clt landelta (nth m' be' r0) = false) /\
      (forall j, m <= j -> j < m' -> clt landelta (nth j be' r0) = true).
  Proof.
    induction fuel as [|fuel IH]; intros kv al be m w kv' al' be' i' J Hf H; cbn [jl_loop] in H.
    - injection H as <- <- <- <-. exists m, w. pose proof (ji_m J). spl; try lia; try assumption.
    - replace (S m - 1) with m in H by lia.
      destruct ((S m <=? ncv) && clt landelta (nth m be r0)) eqn:E.
      + apply andb_true_iff in E. destruct E as [E1 E2]. apply Nat.leb_le in E1.
        apply obind_inv in H. destruct H as ([[[kv1 al1] be1] i1] & Eb & H).
        destruct (body_ok J E1 Eb) as (-> & w1 & J1 & _). 
        assert (Eq : nth m be1 r0 = nth m be r0).
        { unfold body_lanczos in Eb. apply obind_inv in Eb. destruct Eb as (n & _ & Eb). apply obind_inv in Eb. destruct Eb as (u & _ & Eb).
          injection Eb as _ _ <-. apply put_other. lia. }
        destruct (IH kv1 al1 be1 (S m) w1 kv' al' be' i' J1 ltac:(lia) H) as (m' & w' & E' & Hm & J' & Hs & Hr).
        exists m', w'. spl; try assumption; try lia. intros j Hj Hj'. destruct (Nat.eq_dec j m) as [->|N]; [|apply Hr; lia].
        assert (Keep : forall fuel kv al be i kv' al' be' i', jl_loop A ncv landelta reortho fuel kv al be i = Val (kv', al', be', i') ->
          forall j, j < i -> nth j be' r0 = nth j be r0).
        { clear. induction fuel as [|fuel IH]; intros kv al be i kv' al' be' i' H j Hj; cbn [jl_loop] in H.
          - injection H as <- <- <- <-. reflexivity.
          - destruct ((i <=? ncv) && clt landelta (nth (i - 1) be r0)); [|injection H as <- <- <- <-; reflexivity].
            apply obind_inv in H. destruct H as ([[[kv1 al1] be1] i1] & Eb & H). unfold body_lanczos in Eb.
            apply obind_inv in Eb. destruct Eb as (n & _ & Eb). apply obind_inv in Eb. destruct Eb as (u & _ & Eb). injection Eb as <- <- <- <-.
            rewrite (IH _ _ _ _ _ _ _ _ H) by lia. apply put_other. lia. }
        rewrite (Keep _ _ _ _ _ _ _ _ _ H) by lia. rewrite Eq. exact E2.
      + injection H as <- <- <- <-. exists m, w. spl; try assumption; try lia.
        intros Hm. apply andb_false_iff in E. destruct E as [E|E]; [apply Nat.leb_gt in E; lia|exact E].
  Qed.

  Lemma jinv_0 init : jinv init (put (repeat vz (ncv + 2)) 1 init) (repeat r0 ncv) (put (repeat r0 (S ncv)) 0 r1) 0 init.
  Proof.
    constructor.
    - rewrite put_length. apply repeat_length.
    - apply repeat_length.
    - rewrite put_length. apply repeat_length.
    - lia.
    - rewrite put_other by lia. apply nth_repeat.
    - apply put_same. simpl. lia.
    - constructor; intros; lia.
    - reflexivity.
    - lia.
    - rewrite put_same by (rewrite repeat_length; lia). destruct reortho; reflexivity.
    - intros j _. apply nth_repeat.
    - intros j Hj. rewrite put_other by lia. apply nth_repeat.
    - intros j Hj. replace j with 0 by lia. rewrite put_same by (simpl; lia). apply cpos_1.
  Qed.

  Lemma run_jinv init kv al be i : jl_run A ncv landelta reortho init = Val (kv, al, be, i) ->
    exists m w, i = S m /\ jinv init kv al be m w /\ (m < ncv -> clt landelta (nth m be r0) = false) /\
      (forall j, j < m -> clt landelta (nth j be r0) = true).
  Proof.
    intros H. apply (loop_jinv (m := 0) (jinv_0 init)) in H; [|lia]. destruct H as (m & w & E & _ & J & Hs & Hr).
    exists m, w. spl; try assumption. intros j Hj. apply Hr; lia.
  Qed.
End Loop.
