(** * KrylovInst: instances of the scalars and vectors of the Krylov methods *)
From Coq Require Import Field QArith Qcanon Reals ZArith.
From Verif Require Import Prelude Algebra Krylov KrylovFacts KrylovSpec.
Set Implicit Arguments.
Unset Strict Implicit.

(** ** the rational numbers *)
Definition Qb_csr : csr.
Proof. refine (@CSR Qc 0%Qc 1%Qc Qcplus Qcmult _). constructor; intros; ring. Defined.
Definition Qb_cjr : cjr.
Proof. refine (@CJR Qb_csr (fun x => x) _ _ _ _ _); reflexivity. Defined.
Definition Qc_ltb (x y : Qc) : bool := match (x ?= y)%Qc with Lt => true | _ => false end.
Definition Qc_leb (x y : Qc) : bool := match (x ?= y)%Qc with Gt => false | _ => true end.
Definition Qc_root (x : Qc) : Qc := Q2Qc (Z.sqrt (Qnum x) # Z.to_pos (Z.sqrt (Zpos (Qden x)))).
Definition Qc_sqrt (x : Qc) : option Qc :=
  let y := Qc_root x in if Qc_eq_dec (y * y)%Qc x then if Qc_leb 0 y then Some y else None else None.
Lemma Qc_leb_le x y : Qc_leb x y = true <-> (x <= y)%Qc.
Proof. unfold Qc_leb. destruct (x ?= y)%Qc eqn:E; rewrite Qcle_alt, ?E; split; congruence. Qed.
Lemma Qc_le_sub (x y : Qc) : (0 <= y + - x)%Qc <-> (x <= y)%Qc.
Proof. rewrite (Qcle_minus_iff x y). reflexivity. Qed.

Definition Q_cfd : cfd.
Proof.
  refine (@CFD Qb_cjr Qcopp Qcinv Qcft Qc_eq_dec (fun x => (0 <= x)%Qc) _ _ _ _ _ _ Qc_ltb _ Qc_sqrt _); simpl.
  - intros x y Hx Hy. replace (0 : Qc) with (0 + 0)%Qc by ring. apply Qcplus_le_compat; assumption.
  - intros x y Hx Hy. replace (0 : Qc) with (0 * y)%Qc by ring. apply Qcmult_le_compat_r; assumption.
  - intros x. destruct (Qclt_le_dec x 0) as [H|H].
    + replace (x * x)%Qc with (- x * - x)%Qc by ring. replace (0 : Qc) with (0 * - x)%Qc by ring.
      assert (Hn : (0 <= - x)%Qc) by (replace (- x)%Qc with (0 + - x)%Qc by ring; apply Qc_le_sub, Qclt_le_weak, H).
      apply Qcmult_le_compat_r; exact Hn.
    + replace (0 : Qc) with (0 * x)%Qc by ring. apply Qcmult_le_compat_r; exact H.
  - intros x H1 H2. apply Qcle_antisym; [|exact H1]. replace (- x)%Qc with (0 + - x)%Qc in H2 by ring. apply Qc_le_sub, H2.
  - reflexivity.
  - intros x _. destruct (Qclt_le_dec x 0) as [H|H]; [right|left; exact H].
    replace (- x)%Qc with (0 + - x)%Qc by ring. apply Qc_le_sub, Qclt_le_weak, H.
  - intros x y. unfold Qc_ltb. rewrite Qc_le_sub. destruct (x ?= y)%Qc eqn:E; split; try congruence.
    + apply Qceq_alt in E. intros [_ H]. contradiction.
    + intros _. apply Qclt_alt in E. split; [apply Qclt_le_weak, E|apply Qclt_not_eq, E].
    + apply Qcgt_alt in E. intros [H _]. exfalso. exact (Qclt_not_le _ _ E H).
  - intros x y. unfold Qc_sqrt. destruct (Qc_eq_dec (Qc_root x * Qc_root x) x) as [E|]; [|discriminate].
    destruct (Qc_leb 0 (Qc_root x)) eqn:El; [|discriminate]. intros H. injection H as <-. split; [exact E|apply Qc_leb_le, El].
Defined.

Delimit Scope R_scope with re.
(** ** the real numbers *)
Definition Rb_csr : csr.
Proof. refine (@CSR R 0%re 1%re Rplus Rmult _). constructor; intros; ring. Defined.
Definition Rb_cjr : cjr.
Proof. refine (@CJR Rb_csr (fun x => x) _ _ _ _ _); reflexivity. Defined.
Definition R_cfd : cfd.
Proof.
  refine (@CFD Rb_cjr Ropp Rinv RealField.Rfield Req_EM_T (fun x => (0 <= x)%re) _ _ _ _ _ _
            (fun x y => if Rlt_dec x y then true else false) _ (fun x => if Rle_dec 0%re x then Some (R_sqrt.sqrt x) else None) _); simpl.
  - intros x y Hx Hy. apply Rplus_le_le_0_compat; assumption.
  - intros x y Hx Hy. apply Rmult_le_pos; assumption.
  - intros x. apply Rle_0_sqr.
  - intros x H1 H2. apply Rle_antisym; [|exact H1]. rewrite <- (Ropp_involutive x). apply Rge_le, Ropp_0_le_ge_contravar, H2.
  - reflexivity.
  - intros x _. destruct (Rle_dec 0%re x) as [H|H]; [left; exact H|right]. apply Rnot_le_lt in H.
    apply Rlt_le, Ropp_0_gt_lt_contravar. exact H.
  - intros x y. destruct (Rlt_dec x y) as [H|H]; split; try congruence.
    + intros _. split; [apply Rlt_le, Rlt_Rminus, H|apply Rlt_not_eq, H].
    + intros [H1 H2]. exfalso. apply H. destruct H1 as [H1|H1]; [apply Rminus_lt|]; [|exfalso; apply H2].
      * replace (x - y)%re with (- (y + - x))%re by ring. apply Ropp_lt_gt_0_contravar. exact H1.
      * symmetry. apply Rminus_diag_uniq. symmetry. exact H1.
  - intros x y. destruct (Rle_dec 0%re x) as [H|H]; [|discriminate]. intros E. injection E as <-.
    split; [apply sqrt_sqrt, H|apply sqrt_pos].
Defined.
Lemma R_sqrt_total (x : R_cfd) : cpos x -> csqrt x <> None.
Proof. simpl. destruct (Rle_dec 0%re x) as [H|H]; [congruence|contradiction]. Qed.

(** ** complex numbers over a field of real numbers *)
Section Cplx.
  Variable F : cfd.
  Hypothesis Hr : forall x : F, cj x = x.
  Add Field Ff : (cfth F).
  Notation C := (F * F)%type.
  Definition xadd (x y : C) : C := (fst x +! fst y, snd x +! snd y).
  Definition xmul (x y : C) : C := (fst x *! fst y -! snd x *! snd y, fst x *! snd y +! snd x *! fst y).
  Definition xop (x : C) : C := (cop (fst x), cop (snd x)).
  Definition xn (x : C) : F := fst x *! fst x +! snd x *! snd x.
  Definition xinv (x : C) : C := (fst x *! cinv (xn x), cop (snd x) *! cinv (xn x)).
  Definition xcj (x : C) : C := (fst x, cop (snd x)).
  Ltac xe := intros; unfold xadd, xmul, xop, xcj; cbn [fst snd]; try (f_equal; ring).
  Lemma xpair (x y : C) : fst x = fst y -> snd x = snd y -> x = y.
  Proof. destruct x, y; simpl; congruence. Qed.
  Definition cplx_csr : csr.
  Proof.
    refine (@CSR C (r0, r0) (r1, r0) xadd xmul _).
    constructor; intros; apply xpair; unfold xadd, xmul; cbn [fst snd]; ring.
  Defined.
  Definition cplx_cjr : cjr.
  Proof.
    refine (@CJR cplx_csr xcj _ _ _ _ _); intros; apply xpair; unfold xcj; cbn [fst snd radd rmul cplx_csr r0 r1 car];
      unfold xadd, xmul; cbn [fst snd]; ring.
  Defined.
  Lemma xn_0 (x : C) : xn x = r0 -> x = (r0, r0).
  Proof.
    unfold xn. intros H.
    assert (Sq : forall a b : F, a *! a +! b *! b = r0 -> a = r0).
    { intros a b E. assert (Ea : a *! a = r0).
      { apply cpos_anti; [pose proof (cpos_sq a) as P; rewrite Hr in P; exact P|].
        replace (cop (a *! a)) with (b *! b); [pose proof (cpos_sq b) as P; rewrite Hr in P; exact P|].
        transitivity (a *! a +! b *! b -! a *! a); [ring|rewrite E; ring]. }
      apply mul_eq0 in Ea. destruct Ea; assumption. }
    apply xpair; simpl; [apply (Sq _ _ H)|]. apply (Sq (snd x) (fst x)). rewrite <- H. ring.
  Qed.
  Lemma cplx_field : field_theory (r0 : cplx_csr) r1 radd rmul (fun x y => x +! xop y) xop (fun x y => x *! xinv y) xinv (@eq C).
  Proof.
    constructor.
    - constructor; intros; apply xpair; unfold xop; cbn [fst snd radd rmul cplx_csr r0 r1 car]; unfold xadd, xmul; cbn [fst snd]; ring.
    - intros H. injection H. apply one_neq0.
    - reflexivity.
    - intros x Hx. assert (Hn : xn x <> r0) by (intros E; apply Hx, xn_0, E).
      apply xpair; unfold xinv; cbn [fst snd radd rmul cplx_csr r0 r1 car]; unfold xmul; cbn [fst snd].
      + unfold xn in *. field. exact Hn.
      + field. exact Hn.
  Qed.
  Definition cplx : cfd.
  Proof.
    refine (@CFD cplx_cjr xop xinv cplx_field _ (fun x => cpos (fst x) /\ snd x = r0) _ _ _ _ _ _
              (fun x y => if cdec (snd x) (snd y) then clt (fst x) (fst y) else false) _
              (fun x => if cdec (snd x) r0 then match csqrt (fst x) with Some y => Some (y, r0) | None => None end else None) _);
      cbn [cbase cj car radd rmul r0 r1 cplx_csr cplx_cjr].
    - intros x y. destruct (cdec (fst x) (fst y)) as [E|E]; [|right; intros ->; exact (E eq_refl)].
      destruct (cdec (snd x) (snd y)) as [E'|E']; [left; apply xpair; assumption|right; intros ->; exact (E' eq_refl)].
    - intros x y [Hx Ex] [Hy Ey]. unfold xadd. cbn [fst snd]. split; [apply cpos_add; assumption|rewrite Ex, Ey; ring].
    - intros x y [Hx Ex] [Hy Ey]. unfold xmul. cbn [fst snd]. rewrite Ex, Ey. split; [|ring].
      replace (fst x *! fst y -! r0 *! r0) with (fst x *! fst y) by ring. apply cpos_mul; assumption.
    - intros x. unfold xmul, xcj. cbn [fst snd]. split; [|ring].
      replace (fst x *! fst x -! cop (snd x) *! snd x) with (cj (fst x) *! fst x +! cj (snd x) *! snd x) by (rewrite !Hr; ring).
      apply cpos_add; apply cpos_sq.
    - intros x [Hx Ex] [Hy _]. apply xpair; [apply cpos_anti; [exact Hx|exact Hy]|exact Ex].
    - intros x [_ Ex]. apply xpair; [reflexivity|]. unfold xcj. simpl. rewrite Ex. ring.
    - intros x Hx. assert (E : cop (snd x) = snd x) by (apply (f_equal snd) in Hx; exact Hx).
      assert (Es : snd x = r0).
      { destruct (cpos_total (Hr (snd x))) as [P|P]; apply cpos_anti; try exact P; rewrite E in *; exact P. }
      unfold xop. cbn [fst snd]. destruct (cpos_total (Hr (fst x))) as [P|P]; [left|right]; (split; [exact P|]); rewrite Es; ring.
    - intros x y. unfold xadd, xop. cbn [fst snd]. destruct (cdec (snd x) (snd y)) as [E|E].
      + rewrite clt_ok, E. split.
        * intros [P N]. split; [split; [exact P|ring]|]. intros ->. exact (N eq_refl).
        * intros [[P _] N]. split; [exact P|]. intros Q. apply N, xpair; assumption.
      + split; [discriminate|]. intros [[_ Q] _]. exfalso. apply E. transitivity (snd y -! (snd y -! snd x)); [ring|rewrite Q; ring].
    - intros x y. destruct (cdec (snd x) r0) as [E|]; [|discriminate]. destruct (csqrt (fst x)) as [z|] eqn:Ez; [|discriminate].
      intros H. injection H as <-. destruct (csqrt_ok Ez) as [E1 E2]. unfold xmul. cbn [fst snd].
      split; [apply xpair; cbn [fst snd]; [rewrite <- E1; ring|rewrite E; ring]|split; [exact E2|reflexivity]].
  Defined.
End Cplx.
(** the Gaussian rationals *)
Definition QI_cfd : cfd := @cplx Q_cfd (fun x => eq_refl).

Open Scope nat_scope.
(** ** arrays with n entries *)
Section Tup.
  Variable K : cfd.
  Add Field Kf : (cfth K).
  Fixpoint tup (n : nat) : Type := match n with 0 => unit | S n => (K * tup n)%type end.
  Fixpoint tz n : tup n := match n with 0 => tt | S n => (r0, tz n) end.
  Fixpoint ta n : tup n -> tup n -> tup n :=
    match n with 0 => fun _ _ => tt | S n => fun x y => (fst x +! fst y, ta (snd x) (snd y)) end.
  Fixpoint ts n (a : K) : tup n -> tup n := match n with 0 => fun _ => tt | S n => fun x => (a *! fst x, ts a (snd x)) end.
  Fixpoint tip n : tup n -> tup n -> K :=
    match n with 0 => fun _ _ => r0 | S n => fun x y => cj (fst x) *! fst y +! tip (snd x) (snd y) end.
  Lemma tip_pos n (x : tup n) : cpos (tip x x).
  Proof. induction n as [|n IH]; [apply cpos_0|]. simpl. apply cpos_add; [apply cpos_sq|apply IH]. Qed.
  Definition tup_ips (n : nat) : ips K.
  Proof.
    refine (@IPS K (tup n) (tz n) (@ta n) (@ts n) (@tip n) _ _ _ _ _ _ _ _ _ _ _ _).
    - induction n as [|n IH]; intros x y; simpl; [reflexivity|]. f_equal; [ring|apply IH].
    - induction n as [|n IH]; intros x y z; simpl; [reflexivity|]. f_equal; [ring|apply IH].
    - induction n as [|n IH]; intros x; simpl; [destruct x; reflexivity|]. destruct x. simpl. f_equal; [ring|apply IH].
    - induction n as [|n IH]; intros x; simpl; [reflexivity|]. f_equal; [ring|apply IH].
    - induction n as [|n IH]; intros x; simpl; [destruct x; reflexivity|]. destruct x. simpl. f_equal; [ring|apply IH].
    - induction n as [|n IH]; intros a b x; simpl; [reflexivity|]. f_equal; [ring|apply IH].
    - induction n as [|n IH]; intros a b x; simpl; [reflexivity|]. f_equal; [ring|apply IH].
    - induction n as [|n IH]; intros x y z; simpl; [ring|]. rewrite IH. ring.
    - induction n as [|n IH]; intros a x y; simpl; [ring|]. rewrite IH. ring.
    - induction n as [|n IH]; intros x y; simpl; [symmetry; apply cj_0|].
      rewrite cj_add, cj_mul, cj_inv, <- IH. ring.
    - intros x. apply tip_pos.
    - induction n as [|n IH]; intros x; simpl; [destruct x; reflexivity|]. destruct x as [a x]. simpl. intros H.
      assert (Ea : cj a *! a = r0).
      { apply cpos_anti; [apply cpos_sq|]. replace (cop (cj a *! a)) with (tip x x); [apply tip_pos|].
        transitivity (cj a *! a +! tip x x -! cj a *! a); [ring|rewrite H; ring]. }
      f_equal; [apply sq_eq0, Ea|]. apply IH. rewrite <- H, Ea. ring.
  Defined.
  (** a matrix, as a map of arrays *)
  Fixpoint tdot n (row : list K) : tup n -> K :=
    match n with 0 => fun _ => r0 | S n => fun x => hd r0 row *! fst x +! tdot (tl row) (snd x) end.
  Fixpoint rows n m (f : list (list K)) (x : tup m) : tup n :=
    match n with 0 => tt | S n => (tdot (hd [] f) x, rows n (tl f) x) end.
  Fixpoint tnth n : tup n -> nat -> K :=
    match n with 0 => fun _ _ => r0 | S n => fun x i => match i with 0 => fst x | S i => tnth (snd x) i end end.
  Lemma tip_nsum n (x y : tup n) : tip x y = nsum n (fun i => cj (tnth x i) *! tnth y i).
  Proof. induction n as [|n IH]; [reflexivity|]. simpl tip. rewrite nsum_shift, IH. reflexivity. Qed.
  Lemma tdot_nsum n (row : list K) (x : tup n) : tdot row x = nsum n (fun j => nth j row r0 *! tnth x j).
  Proof.
    revert row. induction n as [|n IH]; intros row; [reflexivity|]. simpl tdot. rewrite nsum_shift, IH.
    f_equal; [destruct row; reflexivity|]. apply nsum_ext. intros j Hj. f_equal. destruct row as [|a r]; [destruct j; reflexivity|reflexivity].
  Qed.
  Lemma rows_nth n m (f : mx K) (x : tup m) i : (i < n)%nat -> tnth (rows n f x) i = nsum m (fun j => ent f i j *! tnth x j).
  Proof.
    revert f i. induction n as [|n IH]; intros f i Hi; [lia|]. destruct i as [|i]; simpl.
    - rewrite tdot_nsum. apply nsum_ext. intros j Hj. unfold ent. destruct f; reflexivity.
    - rewrite IH by lia. apply nsum_ext. intros j Hj. unfold ent. destruct f as [|a r]; [destruct i, j; reflexivity|reflexivity].
  Qed.
  (** the conjugate transpose is the adjoint *)
  Lemma rows_adj n m (f : mx K) (x : tup n) (y : tup m) :
    tip x (rows n f y) = tip (rows m (mkmx m n (fun i j => cj (ent f j i))) x) y.
  Proof.
    rewrite !tip_nsum.
    transitivity (nsum n (fun i => nsum m (fun j => cj (tnth x i) *! (ent f i j *! tnth y j)))).
    { apply nsum_ext. intros i Hi. rewrite rows_nth, nsum_mul_l by exact Hi. reflexivity. }
    rewrite nsum_swap. apply nsum_ext. intros j Hj. rewrite rows_nth, cj_nsum, <- nsum_mul_r by exact Hj.
    apply nsum_ext. intros i Hi. rewrite cj_mul, ent_mkmx, cj_inv by assumption. ring.
  Qed.
  Lemma rows_ext n m (f g : mx K) (x : tup m) :
    (forall i j, (i < n)%nat -> (j < m)%nat -> ent f i j = ent g i j) -> rows n f x = rows n g x.
  Proof.
    revert f g. induction n as [|n IH]; intros f g H; [reflexivity|]. simpl. f_equal.
    - rewrite !tdot_nsum. apply nsum_ext. intros j Hj. f_equal. specialize (H 0%nat j ltac:(lia) Hj). unfold ent in H.
      destruct f, g; exact H.
    - apply IH. intros i j Hi Hj. specialize (H (S i) j ltac:(lia) Hj). unfold ent in *. destruct f, g; try exact H; destruct i; exact H.
  Qed.
  Lemma rows_herm n (f : mx K) : hermitian_mx n f -> hermitian (V := tup_ips n) (rows n f).
  Proof.
    intros H x y. cbn [ip tup_ips]. rewrite rows_adj. f_equal. apply rows_ext. intros i j Hi Hj.
    rewrite ent_mkmx by assumption. symmetry. apply H; assumption.
  Qed.
End Tup.
