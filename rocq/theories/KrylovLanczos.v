(** * KrylovLanczos: the loop of [eigsh_lanczos] builds a Lanczos factorisation *)
From Coq Require Import Field.
From Verif Require Import Prelude Algebra Krylov KrylovFacts KrylovSpec.
Set Implicit Arguments.
Unset Strict Implicit.

Section Inv.
  Context {K : cfd} {V : ips K}.
  Add Field Kf : (cfth K).
  Variable A : V -> V.
  Hypothesis herm : hermitian A.

  Definition prev (v : nat -> V) (o : nat -> K) (j : nat) : V :=
    match j with 0 => vz | S i => vs (o j) (v i) end.

  Record linv (m : nat) (v : nat -> V) (d o : nat -> K) (w : V) : Prop := {
    li_on : forall i j, i < m -> j < m -> ip (v i) (v j) = delta_ i j;
    li_d : forall i, i < m -> d i = ip (v i) (A (v i));
    li_rec : forall j, S j < m -> A (v j) = va (vs (o (S j)) (v (S j))) (va (vs (d j) (v j)) (prev v o j));
    li_res : forall j, S j = m -> w = vsub (vsub (A (v j)) (vs (d j) (v j))) (prev v o j);
    li_real : forall i, i < m -> cj (o i) = o i /\ o i <> r0
  }.

  Lemma prev_ext v o v' o' j : (forall i, i <= j -> v i = v' i /\ o i = o' i) -> prev v o j = prev v' o' j.
  Proof.
    intros H. destruct j as [|i]; [reflexivity|]. simpl.
    destruct (H i ltac:(lia)) as [-> _]. destruct (H (S i) ltac:(lia)) as [_ ->]. reflexivity.
  Qed.
  Lemma linv_ext m v d o v' d' o' w :
    (forall i, i < m -> v i = v' i /\ d i = d' i /\ o i = o' i) -> linv m v d o w -> linv m v' d' o' w.
  Proof.
    intros H [H1 H2 H3 H4 H5]. constructor.
    - intros i j Hi Hj. destruct (H i Hi) as [<- _], (H j Hj) as [<- _]. apply H1; assumption.
    - intros i Hi. destruct (H i Hi) as (<- & <- & _). apply H2, Hi.
    - intros j Hj. rewrite <- (prev_ext (v := v) (o := o)) by (intros i Hi; split; apply H; lia).
      destruct (H j ltac:(lia)) as (<- & <- & _), (H (S j) Hj) as (<- & _ & <-). apply H3, Hj.
    - intros j Hj. rewrite <- (prev_ext (v := v) (o := o)) by (intros i Hi; split; apply H; lia).
      destruct (H j ltac:(lia)) as (<- & <- & _). apply H4, Hj.
    - intros i Hi. destruct (H i Hi) as (_ & _ & <-). apply H5, Hi.
  Qed.

  Lemma herm_swap x y : ip x (A y) = cj (ip y (A x)).
  Proof. rewrite herm. apply ip_cj. Qed.

  (** the next vector is orthogonal to all the previous ones *)
  Lemma linv_orth m v d o w : linv m v d o w -> forall i, i < m -> ip (v i) w = r0.
  Proof.
    intros H i Hi. destruct m as [|m]; [lia|].
    rewrite (li_res H eq_refl), !ip_sub, ip_vs.
    pose proof (li_on H) as Hon. unfold delta_ in Hon.
    assert (Hp : forall u j, ip u (prev v o j) = match j with 0 => r0 | S l => o j *! ip u (v l) end)
      by (intros u [|l]; simpl; [apply ip_0|apply ip_vs]).
    rewrite Hp. rewrite (Hon i m) by lia.
    destruct (Nat.eq_dec i m) as [->|Ni].
    - rewrite Nat.eqb_refl, (li_d H) by lia. destruct m as [|l]; [ring|].
      rewrite (Hon (S l) l) by lia. replace (S l =? l) with false by (symmetry; apply Nat.eqb_neq; lia). ring.
    - replace (i =? m) with false by (symmetry; apply Nat.eqb_neq; lia).
      rewrite herm_swap, (li_rec H) by lia. rewrite !ip_add, !ip_vs, Hp.
      rewrite (Hon m (S i)), (Hon m i) by lia.
      replace (m =? i) with false by (symmetry; apply Nat.eqb_neq; lia).
      assert (Ez : match i with 0 => r0 | S l => o i *! ip (v m) (v l) end = r0).
      { destruct i as [|l]; [reflexivity|]. rewrite (Hon m l) by lia.
        replace (m =? l) with false by (symmetry; apply Nat.eqb_neq; lia). ring. }
      rewrite Ez. destruct m as [|l]; [lia|]. rewrite (Hon i l) by lia.
      destruct (Nat.eq_dec i l) as [->|Nl].
      + rewrite !Nat.eqb_refl. replace (o (S l) *! r1 +! (d l *! r0 +! r0)) with (o (S l)) by ring.
        rewrite (proj1 (li_real H (i := S l) ltac:(lia))). ring.
      + replace (S l =? S i) with false by (symmetry; apply Nat.eqb_neq; lia).
        replace (i =? l) with false by (symmetry; apply Nat.eqb_neq; lia).
        replace (o (S i) *! r0 +! (d i *! r0 +! r0)) with (r0 : K) by ring. rewrite cj_0. ring.
  Qed.

  Lemma linv_step m v d o w n u : linv m v d o w -> v m = u -> u = vs (cinv n) w ->
    d m = ip u (A u) -> o m = n -> n *! n = ip w w -> cj n = n -> n <> r0 ->
    linv (S m) v d o (vsub (vsub (A u) (vs (d m) u)) (prev v o m)).
  Proof.
    intros H Hv Hu Hd Ho Hn Hr Hz. pose proof (linv_orth H) as Horth.
    assert (Hc : cj (cinv n) = cinv n) by (rewrite cj_cinv, Hr by exact Hz; reflexivity).
    assert (Hw : w = vs n u).
    { rewrite Hu, vs_mul. replace (n *! cinv n) with (r1 : K) by (field; exact Hz). rewrite vs_1. reflexivity. }
    constructor.
    - intros i j Hi Hj. destruct (Nat.eq_dec i m) as [Ei|Ei], (Nat.eq_dec j m) as [Ej|Ej].
      + subst i j. unfold delta_. rewrite Nat.eqb_refl, Hv, Hu, ip_vs, ip_vsl, <- Hn, Hc. field. exact Hz.
      + subst i. unfold delta_. replace (m =? j) with false by (symmetry; apply Nat.eqb_neq; lia).
        rewrite Hv, Hu, ip_vsl, (ip_cj (v j)), Horth, cj_0 by lia. ring.
      + subst j. unfold delta_. replace (i =? m) with false by (symmetry; apply Nat.eqb_neq; lia).
        rewrite Hv, Hu, ip_vs, Horth by lia. ring.
      + apply (li_on H); lia.
    - intros i Hi. destruct (Nat.eq_dec i m) as [->|Ei]; [rewrite Hv; exact Hd|apply (li_d H); lia].
    - intros j Hj. destruct (Nat.eq_dec (S j) m) as [Ej|Ej]; [|apply (li_rec H); lia].
      rewrite Ej, Ho, Hv, <- Hw, (li_res H Ej). apply vec_ext. intros z. rewrite !ip_add, !ip_sub, !ip_vs. ring.
    - intros j Hj. injection Hj as ->. rewrite Hv. reflexivity.
    - intros i Hi. destruct (Nat.eq_dec i m) as [->|Ei]; [rewrite Ho; split; assumption|apply (li_real H); lia].
  Qed.
End Inv.

(** ** the Krylov space *)
Section Space.
  Context {K : cfd} {V : ips K}.
  Add Field Kf2 : (cfth K).
  Variable A : V -> V.
  Hypothesis herm : hermitian A.

  Lemma A_vsum n (f : nat -> V) : A (vsum n f) = vsum n (fun i => A (f i)).
  Proof. apply (adj_vsum (B := A) herm). Qed.
  Lemma A_vs a x : A (vs a x) = vs a (A x).
  Proof. apply (adj_vs (B := A) herm). Qed.
  Lemma A_spanf n (f : nat -> V) m g x : spanf n f x -> (forall i, i < n -> spanf m g (A (f i))) -> spanf m g (A x).
  Proof.
    intros [c ->] H. rewrite A_vsum. apply spanf_vsum. intros i Hi. rewrite A_vs. apply spanf_vs, H, Hi.
  Qed.

  Lemma linv_in_krylov m v d o w : linv A m v d o w ->
    forall j, j < m -> spanf (S j) (fun i => Nat.iter i A (v 0)) (v j).
  Proof.
    intros H. set (f := fun i => Nat.iter i A (v 0)).
    assert (HA : forall n x, spanf n f x -> spanf (S n) f (A x)).
    { intros n x Hx. apply (A_spanf Hx). intros i Hi. change (spanf (S n) f (f (S i))). apply spanf_in. lia. }
    induction j as [j IH] using (well_founded_induction lt_wf). intros Hj.
    destruct j as [|j]; [change (spanf 1 f (f 0)); apply spanf_in; lia|].
    destruct (li_real H Hj) as [_ Hz].
    assert (E : v (S j) = vs (cinv (o (S j))) (vsub (vsub (A (v j)) (vs (d j) (v j))) (prev v o j))).
    { rewrite (li_rec H Hj). apply vec_ext. intros z. rewrite ip_vs, !ip_sub, !ip_add, !ip_vs. field. exact Hz. }
    rewrite E. apply spanf_vs, spanf_sub; [apply spanf_sub|].
    - apply HA, IH; lia.
    - apply spanf_vs. apply spanf_le with (n := S j); [lia|]. apply IH; lia.
    - destruct j as [|i]; [apply spanf_0|]. simpl. apply spanf_vs. apply spanf_le with (n := S i); [lia|]. apply IH; lia.
  Qed.
  Lemma krylov_in_linv m v d o w : linv A m v d o w ->
    forall j, j < m -> spanf (S j) v (Nat.iter j A (v 0)).
  Proof.
    intros H. induction j as [|j IH]; intros Hj; [change (spanf 1 v (v 0)); apply spanf_in; lia|].
    change (Nat.iter (S j) A (v 0)) with (A (Nat.iter j A (v 0))).
    apply (A_spanf (IH ltac:(lia))). intros i Hi. rewrite (li_rec H) by lia.
    apply spanf_add; [apply spanf_vs, spanf_in; lia|]. apply spanf_add; [apply spanf_vs, spanf_in; lia|].
    destruct i as [|l]; [apply spanf_0|]. apply spanf_vs, spanf_in. lia.
  Qed.
End Space.

Ltac spl := repeat match goal with |- _ /\ _ => split end.

(** ** the loop *)
Section Loop.
  Context {K : cfd} {V : ips K}.
  Add Field Kf4 : (cfth K).
  Variable A : V -> V * bool.
  Hypothesis herm : hermitian (fun x => fst (A x)).
  Hypothesis noalias : forall x, snd (A x) = false.
  Variable eigh : mx K -> option (list K * mx K).
  Variables (numeig : nat) (tol delta : K) (ndiag : nat) (reortho : bool).
  Notation A1 := (fun x => fst (A x)).
  Notation vn l := (fun i => nth i l vz).
  Notation kn l := (fun i => nth i l r0).

  Lemma gs_id (l : list V) u : (forall v, In v l -> ip v u = r0) -> fold_left gs1 l u = u.
  Proof.
    induction l as [|v r IH]; intros H; [reflexivity|]. simpl.
    assert (E : gs1 u v = u).
    { unfold gs1. rewrite (H v) by (left; reflexivity). rewrite vs_0. apply vec_ext. intros z. rewrite ip_sub, ip_0. ring. }
    rewrite E. apply IH. intros; apply H; right; assumption.
  Qed.

  Lemma nrm_ok (x : V) n : nrm x = Val n -> n *! n = ip x x /\ cpos n.
  Proof.
    unfold nrm, ofopt. destruct (csqrt (ip x x)) eqn:E; [|discriminate]. intros H. injection H as <-.
    exact (csqrt_ok E).
  Qed.
  Lemma vdiv_inv (x : V) n y : vdiv x n = Val y -> n <> r0 /\ y = vs (cinv n) x.
  Proof. unfold vdiv. destruct (cdec n r0); [discriminate|]. intros H. injection H as <-. split; [assumption|reflexivity]. Qed.
  Lemma obind_inv B C (r : out B) (f : B -> out C) y : obind r f = Val y -> exists x, r = Val x /\ f x = Val y.
  Proof. destruct r; simpl; intros H; try discriminate. eexists. split; [reflexivity|exact H]. Qed.

  Lemma last_nth (l : list V) d : last l d = nth (length l - 1) l d.
  Proof.
    induction l as [|x [|y r] IH]; [reflexivity..|]. change (last (x :: y :: r) d) with (last (y :: r) d). rewrite IH.
    simpl. rewrite Nat.sub_0_r. reflexivity.
  Qed.

  Lemma loop_ok fuel : forall m kv dg nr old w kv' dg' nr' e,
    lanczos_loop A eigh numeig tol delta ndiag reortho fuel m kv dg nr old w = Val (kv', dg', nr', e) ->
    length kv = m -> length dg = m -> length nr = m -> linv A1 m (vn kv) (kn dg) (kn nr) w ->
    exists k w', length kv' = k /\ length dg' = k /\ length nr' = k /\ linv A1 k (vn kv') (kn dg') (kn nr') w' /\
      m <= k <= m + fuel /\ (e = Exhausted -> k = m + fuel) /\
      (e = Invariant -> exists n, csqrt (ip w' w') = Some n /\ clt n delta = true) /\
      (m = 0 -> k = 0 -> w' = w) /\
      (m = 0 -> 0 < k -> exists n, n *! n = ip w w /\ cpos n /\ n <> r0 /\ nth 0 kv' vz = vs (cinv n) w) /\
      firstn m kv' = kv.
  Proof.
    induction fuel as [|fuel IH]; intros m kv dg nr old w kv' dg' nr' e H Lk Ld Ln Hi.
    - injection H as <- <- <- <-. exists m, w. subst m. rewrite firstn_all. spl; try lia; try congruence; try assumption; try (intros; discriminate); intros; exfalso; lia.
    - cbn [lanczos_loop] in H. apply obind_inv in H. destruct H as (n & En & H).
      destruct (clt n delta) eqn:Es.
      { injection H as <- <- <- <-. exists m, w. subst m. rewrite firstn_all. spl; try lia; try congruence; try assumption; try (intros; exfalso; lia).
        intros _. exists n. split; [|exact Es]. unfold nrm, ofopt in En. destruct (csqrt (ip w w)); congruence. }
      apply obind_inv in H. destruct H as (u & Eu & H).
      destruct (nrm_ok En) as [Hn Pn]. destruct (vdiv_inv Eu) as [Nz Hu]. clear En Eu.
      assert (Horth : forall i, i < m -> ip (nth i kv vz) u = r0).
      { intros i Hl. rewrite Hu, ip_vs, (linv_orth herm Hi Hl). ring. }
      assert (Ev : (if reortho then fold_left gs1 kv u else u) = u).
      { destruct reortho; [|reflexivity]. apply gs_id. intros v Hv. apply In_nth with (d := vz) in Hv.
        destruct Hv as (i & Hl & <-). apply Horth. lia. }
      rewrite Ev in H. clear Ev.
      set (a := ip u (fst (A u))) in *.
      assert (St : linv A1 (S m) (vn (kv ++ [u])) (kn (dg ++ [a])) (kn (nr ++ [n]))
                     (vsub (vsub (A1 u) (vs a u)) (prev (vn (kv ++ [u])) (kn (nr ++ [n])) m))).
      { assert (Ea : nth m (dg ++ [a]) r0 = a) by (rewrite app_nth2, Ld, Nat.sub_diag by lia; reflexivity).
        replace (vs a u) with (vs (nth m (dg ++ [a]) r0) u) by (rewrite Ea; reflexivity).
        apply (linv_step (A := A1) (v := vn (kv ++ [u])) (d := kn (dg ++ [a])) (o := kn (nr ++ [n])) herm (w := w) (n := n)).
        - revert Hi. apply linv_ext. intros i Hl. rewrite !app_nth1 by lia. repeat split.
        - rewrite app_nth2, Lk, Nat.sub_diag by lia. reflexivity.
        - exact Hu.
        - exact Ea.
        - rewrite app_nth2, Ln, Nat.sub_diag by lia. reflexivity.
        - exact Hn.
        - apply cpos_real, Pn.
        - exact Nz. }
      apply obind_inv in H. destruct H as ([c old'] & _ & H).
      assert (H0 : m = 0 -> exists n0, n0 *! n0 = ip w w /\ cpos n0 /\ n0 <> r0 /\ u = vs (cinv n0) w).
      { intros _. exists n. spl; assumption. }
      destruct c.
      + injection H as <- <- <- <-. exists (S m). eexists. rewrite !app_length. simpl.
        spl; try lia; try congruence; try (intros; discriminate).
        * exact St.
        * intros Em _. destruct (H0 Em) as (n0 & ? & ? & ? & ?). exists n0. spl; try assumption.
          destruct kv; [assumption|simpl in Lk; lia].
        * rewrite <- Lk, firstn_app, Nat.sub_diag, firstn_all. simpl. apply app_nil_r.
      + rewrite noalias in H.
        assert (Ew : (if 0 <? m then vsub (vsub (fst (A u)) (vs a u)) (vs n (last kv vz)) else vsub (fst (A u)) (vs a u))
                     = vsub (vsub (A1 u) (vs a u)) (prev (vn (kv ++ [u])) (kn (nr ++ [n])) m)).
        { destruct m as [|l].
          - simpl. apply vec_ext. intros z. rewrite (ip_sub z _ vz), ip_0. ring.
          - change (0 <? S l) with true. cbv iota. unfold prev. f_equal.
            rewrite last_nth, Lk, app_nth2, Ln, Nat.sub_diag, app_nth1 by lia. simpl. rewrite Nat.sub_0_r. reflexivity. }
        rewrite Ew in H. apply IH in H; try (rewrite app_length; simpl; lia); [|exact St].
        destruct H as (k & w' & L1 & L2 & L3 & Hk & B1 & B2 & B3 & _ & _ & Hf).
        exists k, w'. spl; try assumption; try lia.
        * intros Ee. rewrite (B2 Ee). lia.
        * intros Em Hkp. destruct (H0 Em) as (n0 & ? & ? & ? & Hu0). exists n0. spl; try assumption.
          rewrite <- Hu0. subst m. destruct kv; [|simpl in Em; lia]. simpl in Hf. destruct kv'; [discriminate|].
          simpl in Hf. injection Hf as ->. reflexivity.
        * assert (E : firstn m (firstn (S m) kv') = kv).
          { rewrite Hf, <- Lk, firstn_app, Nat.sub_diag, firstn_all. simpl. apply app_nil_r. }
          rewrite firstn_firstn in E. replace (Nat.min m (S m)) with m in E by lia. exact E.
  Qed.
End Loop.
