(** * KrylovRitz: the factorisation returned by the loop, and the eigenpairs made from it *)
From Coq Require Import Field.
From Verif Require Import Prelude Algebra Krylov KrylovFacts KrylovSpec KrylovLanczos.
Set Implicit Arguments.
Unset Strict Implicit.

Lemma tl_nth B (l : list B) i d : nth i (tl l) d = nth (S i) l d.
Proof. destruct l; [destruct i; reflexivity|reflexivity]. Qed.

Section Tri.
  Context {K : cfd}.
  Add Field Kf : (cfth K).
  Variables dg nr : list K.
  Let k := length dg.
  Let T := tridiag dg nr.
  Let d i := nth i dg r0.
  Let o i := nth i nr r0.
  Hypothesis Ho : forall i, i < k -> cj (o i) = o i.

  Lemma tri_ent i j : i < k -> j < k -> ent T i j =
    (if i =? j then d i else r0) +! (if j =? S i then o j else r0) +! (if i =? S j then o i else r0).
  Proof.
    intros Hi Hj. unfold T, tridiag. rewrite ent_mkmx by assumption. rewrite !tl_nth. fold (o (S i)) (o (S j)).
    f_equal; [f_equal|].
    - destruct (Nat.eqb_spec j (S i)) as [->|]; reflexivity.
    - destruct (Nat.eqb_spec i (S j)) as [->|]; [|reflexivity]. apply Ho. exact Hi.
  Qed.
  Lemma tri_sum j (g : nat -> K) : j < k -> nsum k (fun i => ent T i j *! g i) =
    d j *! g j +! (if S j <? k then o (S j) *! g (S j) else r0) +! (match j with 0 => r0 | S l => o j *! g l end).
  Proof.
    intros Hj.
    transitivity (nsum k (fun i => (if i =? j then d i *! g i else r0) +! (if j =? S i then o j *! g i else r0)
                                   +! (if i =? S j then o i *! g i else r0))).
    { apply nsum_ext. intros i Hi. rewrite tri_ent by assumption.
      destruct (i =? j), (j =? S i), (i =? S j); ring. }
    rewrite !nsum_add.
    rewrite (@nsum_single K k (fun i => if i =? j then d i *! g i else r0) j); [rewrite Nat.eqb_refl|exact Hj|].
    2:{ intros i Hi Hn. apply Nat.eqb_neq in Hn. rewrite Hn. reflexivity. }
    assert (E1 : nsum k (fun i => if j =? S i then o j *! g i else r0) = match j with 0 => r0 | S l => o j *! g l end).
    { destruct j as [|l]; [apply nsum_zero; reflexivity|].
      rewrite (@nsum_single K k _ l); [rewrite Nat.eqb_refl; reflexivity|lia|].
      intros i Hi Hn. replace (S l =? S i) with false by (symmetry; apply Nat.eqb_neq; lia). reflexivity. }
    assert (E2 : nsum k (fun i => if i =? S j then o i *! g i else r0) = if S j <? k then o (S j) *! g (S j) else r0).
    { destruct (Nat.ltb_spec (S j) k) as [Hl|Hl].
      - rewrite (@nsum_single K k _ (S j)); [rewrite Nat.eqb_refl; reflexivity|exact Hl|].
        intros i Hi Hn. apply Nat.eqb_neq in Hn. rewrite Hn. reflexivity.
      - apply nsum_zero. intros i Hi. replace (i =? S j) with false by (symmetry; apply Nat.eqb_neq; lia). reflexivity. }
    rewrite E1, E2. ring.
  Qed.
  Lemma tri_herm : (forall i, i < k -> cj (d i) = d i) -> hermitian_mx k T.
  Proof.
    intros Hd i j Hi Hj. rewrite !tri_ent by assumption. rewrite !cj_add.
    rewrite (Nat.eqb_sym j i).
    replace (cj (if i =? j then d j else r0)) with (if i =? j then d i else r0).
    2:{ destruct (Nat.eqb_spec i j) as [->|]; [symmetry; apply Hd, Hj|symmetry; apply cj_0]. }
    replace (cj (if i =? S j then o i else r0)) with (if i =? S j then o i else r0)
      by (destruct (i =? S j); symmetry; [apply Ho, Hi|apply cj_0]).
    replace (cj (if j =? S i then o j else r0)) with (if j =? S i then o j else r0)
      by (destruct (j =? S i); symmetry; [apply Ho, Hj|apply cj_0]).
    ring.
  Qed.
  Lemma tri_tri : tridiagonal k T.
  Proof.
    intros i j Hi Hj H. rewrite tri_ent by assumption.
    replace (i =? j) with false by (symmetry; apply Nat.eqb_neq; lia).
    replace (j =? S i) with false by (symmetry; apply Nat.eqb_neq; lia).
    replace (i =? S j) with false by (symmetry; apply Nat.eqb_neq; lia). ring.
  Qed.
End Tri.

Section Fact.
  Context {K : cfd} {V : ips K}.
  Add Field Kf2 : (cfth K).
  Variable A : V -> V.
  Hypothesis herm : hermitian A.
  Notation vn l := (fun i => nth i l vz).
  Notation kn l := (fun i => nth i l r0).

  Lemma ip_lin z c (l : list V) : ip z (lin c l) = nsum (length l) (fun i => c i *! ip z (nth i l vz)).
  Proof. unfold lin. rewrite ip_vsum. apply nsum_ext. intros i Hi. apply ip_vs. Qed.

  Variables (kv : list V) (dg nr : list K) (w : V).
  Let k := length kv.
  Hypothesis Ld : length dg = k.
  Hypothesis Hi : linv A k (vn kv) (kn dg) (kn nr) w.
  Let T := tridiag dg nr.

  Lemma reals : forall i, i < length dg -> cj (nth i nr r0) = nth i nr r0.
  Proof. intros i H. apply (li_real Hi). lia. Qed.
  Lemma diag_real : forall i, i < length dg -> cj (nth i dg r0) = nth i dg r0.
  Proof. intros i H. rewrite (li_d Hi) by lia. symmetry. apply herm_swap, herm. Qed.
  Lemma ip_prev z j : ip z (prev (vn kv) (kn nr) j) = match j with 0 => r0 | S l => nth j nr r0 *! ip z (nth l kv vz) end.
  Proof. destruct j as [|l]; simpl; [apply ip_0|apply ip_vs]. Qed.
  Lemma linv_residual : 0 < k -> residual A kv T = w.
  Proof.
    intros Hk. unfold residual. fold k. apply vec_ext. intros z. rewrite ip_sub, ip_lin. fold k.
    rewrite <- Ld at 2. unfold T. rewrite (tri_sum reals) by lia. rewrite Ld.
    replace (S (k - 1) <? k) with false by (symmetry; apply Nat.ltb_ge; lia).
    rewrite (li_res Hi (j := k - 1)) by lia. rewrite !ip_sub, ip_vs, ip_prev. ring.
  Qed.
  Lemma linv_factorised : factorised A kv T.
  Proof.
    constructor.
    - exact (li_on Hi).
    - intros j Hj. apply vec_ext. intros z. rewrite ip_lin. fold k in Hj |- *.
      rewrite <- Ld. unfold T. rewrite (tri_sum reals) by lia. rewrite Ld.
      replace (S j <? k) with true by (symmetry; apply Nat.ltb_lt; lia).
      rewrite (li_rec Hi Hj). rewrite !ip_add, !ip_vs, ip_prev. ring.
    - intros i Hl. rewrite linv_residual by (unfold k; lia). apply (linv_orth herm Hi Hl).
  Qed.
  Lemma krylov_nth j x : j < k -> nth j (krylov A x k) vz = Nat.iter j A x.
  Proof.
    intros Hj. unfold krylov. rewrite (nth_indep _ vz (Nat.iter 0 A x)) by (rewrite map_length, seq_length; exact Hj).
    rewrite (map_nth (fun i => Nat.iter i A x)), seq_nth by exact Hj. reflexivity.
  Qed.
  Lemma iter_scale x a j : Nat.iter j A (vs a x) = vs a (Nat.iter j A x).
  Proof. induction j as [|j IH]; [reflexivity|]. simpl. rewrite IH. apply A_vs, herm. Qed.
  Lemma linv_span x a : a <> r0 -> (0 < k -> nth 0 kv vz = vs a x) -> same_span kv (krylov A x k).
  Proof.
    intros Ha Hx y.
    assert (Lk : length (krylov A x k) = k) by (unfold krylov; rewrite map_length; apply seq_length).
    assert (Hs : forall l : list V, in_span l y <-> spanf (length l) (vn l) y) by (intros l; reflexivity).
    rewrite !Hs, Lk. fold k. split; intros H; apply (spanf_trans H); intros j Hj.
    - apply spanf_ext with (f := fun i => Nat.iter i A x); [intros i Hl; symmetry; apply krylov_nth, Hl|].
      apply spanf_le with (n := S j); [lia|].
      apply (spanf_trans (linv_in_krylov herm Hi Hj)). intros i Hl. rewrite Hx by lia. rewrite iter_scale.
      apply spanf_vs. exact (@spanf_in K V (S j) (fun l => Nat.iter l A x) i Hl).
    - rewrite krylov_nth by exact Hj.
      assert (E : Nat.iter j A x = vs (cinv a) (Nat.iter j A (nth 0 kv vz))).
      { rewrite Hx by lia. rewrite iter_scale, vs_mul, cinv_l, vs_1 by exact Ha. reflexivity. }
      rewrite E. apply spanf_vs. apply spanf_le with (n := S j); [lia|]. apply (krylov_in_linv herm Hi Hj).
  Qed.
End Fact.

(** ** Ritz pairs of any factorisation *)
Section Ritz.
  Context {K : cfd} {V : ips K}.
  Add Field Kf3 : (cfth K).
  Variable A : V -> V.
  Hypothesis herm : hermitian A.
  Variables (kv : list V) (T : mx K).
  Hypothesis Hf : factorised A kv T.
  Let k := length kv.
  Variables (th : list K) (U : mx K).
  Hypothesis He : eigen_ok k T (th, U).
  Notation v i := (nth i kv vz).
  Notation r := (residual A kv T).
  Definition ritz (j : nat) : V := lin (fun i => ent U i j) kv.

  Lemma lin_ip c z : ip (lin c kv) z = nsum k (fun i => cj (c i) *! ip (v i) z).
  Proof.
    unfold lin. rewrite ip_vsuml. apply nsum_ext. intros i Hi. apply ip_vsl.
  Qed.
  Lemma coef c i : i < k -> ip (v i) (lin c kv) = c i.
  Proof.
    intros Hi. rewrite ip_lin. fold k. rewrite (@nsum_single K k _ i); [|exact Hi|].
    - rewrite (fa_on Hf) by assumption. unfold delta_. rewrite Nat.eqb_refl. ring.
    - intros j Hj Hn. rewrite (fa_on Hf) by assumption. unfold delta_.
      replace (i =? j) with false by (symmetry; apply Nat.eqb_neq; congruence). ring.
  Qed.
  Lemma lin_lin c d : ip (lin c kv) (lin d kv) = nsum k (fun i => cj (c i) *! d i).
  Proof. rewrite lin_ip. apply nsum_ext. intros i Hi. rewrite coef by exact Hi. reflexivity. Qed.
  Lemma perp_lin c : ip (lin c kv) r = r0.
  Proof. rewrite lin_ip. apply nsum_zero. intros i Hi. rewrite (fa_perp Hf) by exact Hi. ring. Qed.

  Lemma A_v j : j < k -> A (v j) = va (lin (fun i => ent T i j) kv) (if S j =? k then r else vz).
  Proof.
    intros Hj. destruct (Nat.eqb_spec (S j) k) as [E|E].
    - replace j with (k - 1) by lia. unfold residual. fold k. apply vec_ext. intros z. rewrite ip_add, ip_sub. ring.
    - rewrite va_z. apply (fa_rec Hf). fold k. lia.
  Qed.
  (** A of a combination of the basis vectors *)
  Lemma A_lin c : 0 < k -> A (lin c kv) = va (lin (fun i => nsum k (fun j => ent T i j *! c j)) kv) (vs (c (k - 1)) r).
  Proof.
    intros Hk. unfold lin at 1. rewrite (A_vsum herm). fold k. apply vec_ext. intros z.
    rewrite ip_add, ip_vsum, ip_lin, ip_vs. fold k.
    transitivity (nsum k (fun j => nsum k (fun i => ent T i j *! c j *! ip z (v i)) +! (if S j =? k then c j *! ip z r else r0))).
    { apply nsum_ext. intros j Hj. rewrite (A_vs herm), ip_vs, (A_v Hj), ip_add, ip_lin. fold k.
      transitivity (c j *! nsum k (fun i => ent T i j *! ip z (v i)) +! c j *! ip z (if S j =? k then r else vz)); [ring|].
      f_equal.
      - rewrite <- nsum_mul_l. apply nsum_ext. intros i Hi. ring.
      - destruct (S j =? k); [reflexivity|]. rewrite ip_0. ring. }
    rewrite nsum_add, nsum_swap. f_equal.
    - apply nsum_ext. intros i Hi. rewrite <- nsum_mul_r. reflexivity.
    - rewrite (@nsum_single K k _ (k - 1)); [|lia|].
      + replace (S (k - 1) =? k) with true by (symmetry; apply Nat.eqb_eq; lia). reflexivity.
      + intros i Hi Hn. replace (S i =? k) with false by (symmetry; apply Nat.eqb_neq; lia). reflexivity.
  Qed.

  Lemma ritz_on i j : i < k -> j < k -> ip (ritz i) (ritz j) = delta_ i j.
  Proof. intros Hi Hj. unfold ritz. rewrite lin_lin. destruct He as (_ & _ & H & _). apply H; assumption. Qed.
  Lemma lin_ext c d : (forall i, i < k -> c i = d i) -> lin c kv = lin d kv.
  Proof. intros H. unfold lin. apply vsum_ext. intros i Hi. rewrite H by exact Hi. reflexivity. Qed.
  Lemma lin_vs a c : vs a (lin c kv) = lin (fun i => a *! c i) kv.
  Proof.
    apply vec_ext. intros z. rewrite ip_vs, !ip_lin, <- nsum_mul_l. apply nsum_ext. intros i Hi. ring.
  Qed.
  Lemma ritz_eigen j : j < k -> A (ritz j) = va (vs (nth j th r0) (ritz j)) (vs (ent U (k - 1) j) r).
  Proof.
    intros Hj. unfold ritz. rewrite A_lin by lia. f_equal. rewrite lin_vs. apply lin_ext. intros i Hi.
    destruct He as (_ & H & _). apply H; assumption.
  Qed.
  Lemma ritz_ray i j : i < k -> j < k -> ip (ritz i) (A (ritz j)) = nth j th r0 *! delta_ i j.
  Proof.
    intros Hi Hj. rewrite ritz_eigen, ip_add, !ip_vs, ritz_on by assumption.
    unfold ritz at 1. rewrite perp_lin. ring.
  Qed.
  Lemma last_bound j : j < k -> cpos (r1 -! cj (ent U (k - 1) j) *! ent U (k - 1) j).
  Proof.
    intros Hj. destruct He as (_ & _ & H & _). specialize (H j j Hj Hj). unfold delta_ in H. rewrite Nat.eqb_refl in H.
    rewrite <- H. destruct k as [|m]; [lia|]. rewrite nsum_S. replace (S m - 1) with m by lia.
    match goal with |- cpos ?x => replace x with (nsum m (fun l => cj (ent U l j) *! ent U l j)) by ring end.
    apply cpos_lsum. intros l Hl. apply cpos_sq.
  Qed.

  (** a vector of the space, in the basis of the Ritz vectors *)
  Lemma in_ritz c : lin c kv = vsum k (fun j => vs (ip (ritz j) (lin c kv)) (ritz j)).
  Proof.
    apply vec_ext. intros z. rewrite ip_vsum, ip_lin. fold k.
    transitivity (nsum k (fun i => nsum k (fun j => ip (ritz j) (lin c kv) *! (ent U i j *! ip z (v i))))).
    2:{ rewrite nsum_swap. apply nsum_ext. intros j Hj. rewrite nsum_mul_l, ip_vs. f_equal. unfold ritz. rewrite ip_lin. reflexivity. }
    apply nsum_ext. intros i Hi.
    transitivity (nsum k (fun j => nsum k (fun l => c l *! (ent U i j *! cj (ent U l j)))) *! ip z (v i)).
    2:{ rewrite <- nsum_mul_r. apply nsum_ext. intros j Hj. unfold ritz. rewrite lin_lin.
        transitivity (nsum k (fun l => cj (ent U l j) *! c l) *! (ent U i j *! ip z (v i))); [|reflexivity].
        transitivity (nsum k (fun l => cj (ent U l j) *! c l) *! ent U i j *! ip z (v i)); [|ring]. f_equal.
        rewrite <- nsum_mul_r. apply nsum_ext. intros l Hl. ring. }
    f_equal. rewrite nsum_swap. destruct He as (_ & _ & _ & H & _).
    transitivity (nsum k (fun l => c l *! delta_ i l)).
    - rewrite (@nsum_single K k _ i); [unfold delta_; rewrite Nat.eqb_refl; ring|exact Hi|].
      intros l Hl Hn. unfold delta_. replace (i =? l) with false by (symmetry; apply Nat.eqb_neq; congruence). ring.
    - apply nsum_ext. intros l Hl. rewrite nsum_mul_l, (H i l Hi Hl). reflexivity.
  Qed.
  (** the Rayleigh quotient over the vectors of the space orthogonal to the first j Ritz vectors *)
  Lemma ritz_min c j : j < k -> (forall i, i < j -> ip (ritz i) (lin c kv) = r0) ->
    cpos (ip (lin c kv) (A (lin c kv)) -! nth j th r0 *! ip (lin c kv) (lin c kv)).
  Proof.
    intros Hj Hp. set (y := lin c kv) in *. set (e := fun l => ip (ritz l) y).
    assert (Ey : y = vsum k (fun l => vs (e l) (ritz l))) by apply in_ritz.
    assert (E1 : ip y y = nsum k (fun l => cj (e l) *! e l)).
    { rewrite Ey at 1. rewrite ip_vsuml. apply nsum_ext. intros l Hl. rewrite ip_vsl. reflexivity. }
    assert (E2 : ip y (A y) = nsum k (fun l => nth l th r0 *! (cj (e l) *! e l))).
    { rewrite Ey at 2. rewrite (A_vsum herm), ip_vsum. apply nsum_ext. intros l Hl.
      rewrite (A_vs herm), ip_vs, (ritz_eigen Hl), ip_add, !ip_vs.
      rewrite (ip_cj (ritz l) y). fold (e l). unfold y at 1. rewrite perp_lin. ring. }
    rewrite E1, E2, <- nsum_mul_l. unfold nsum. rewrite cop_lsum, <- lsum_add. apply cpos_lsum. intros l Hl.
    apply in_seq in Hl. destruct (Nat.lt_ge_cases l j) as [Hlt|Hge].
    - unfold e. rewrite Hp by exact Hlt.
      match goal with |- cpos ?x => replace x with (r0 : K) by ring end. apply cpos_0.
    - match goal with |- cpos ?x => replace x with ((nth l th r0 -! nth j th r0) *! (cj (e l) *! e l)) by ring end.
      apply cpos_mul; [|apply cpos_sq]. destruct He as (_ & _ & _ & _ & H). apply H; lia.
  Qed.
  (** the residual vanishes when A maps the space into itself *)
  Lemma residual_0 : 0 < k -> in_span kv (A (v (k - 1))) -> r = vz.
  Proof.
    intros Hk [c Hc]. apply ip_def.
    assert (E : r = lin (fun i => c i -! ent T i (k - 1)) kv).
    { apply vec_ext. intros z. unfold residual at 1. fold k. rewrite ip_sub, Hc, !ip_lin. fold k.
      transitivity (nsum k (fun i => c i *! ip z (v i)) +! cop r1 *! nsum k (fun i => ent T i (k - 1) *! ip z (v i))); [ring|].
      rewrite <- nsum_mul_l, <- nsum_add. apply nsum_ext. intros i Hi. ring. }
    rewrite E at 1. apply perp_lin.
  Qed.
End Ritz.
