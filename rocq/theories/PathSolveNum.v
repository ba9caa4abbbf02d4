(** * PathSolveNum: the numbers the solvers compute with

    [R_lsf]: decimal logarithms as real numbers, as in the code.  [Q_lsf]: positive rational dimensions (their
    product for the sum of logarithms); only [lkey] is a stand-in (any monotone function will do for the theorems). *)
From Coq Require Import ZArith QArith Qcanon Reals Lra Lia Eqdep_dec Bool.
From Verif Require Import Prelude PathSolve.
Set Implicit Arguments.
Unset Strict Implicit.

(** ** logarithms *)
Section Real.
  Local Open Scope R_scope.
  Definition log10 (x : R) : R := ln x / ln 10.
  Definition pow10 (x : R) : R := exp (x * ln 10).
  Lemma ln10_pos : 0 < ln 10.
  Proof. rewrite <- ln_1. apply ln_increasing; lra. Qed.
  Lemma pow10_pos x : 0 < pow10 x. Proof. apply exp_pos. Qed.
  Lemma log10_pow10 x : log10 (pow10 x) = x.
  Proof. unfold log10, pow10. rewrite ln_exp. field. pose proof ln10_pos. lra. Qed.
  Lemma pow10_log10 x : 0 < x -> pow10 (log10 x) = x.
  Proof. intros H. unfold log10, pow10. replace (ln x / ln 10 * ln 10) with (ln x) by (field; pose proof ln10_pos; lra). apply exp_ln, H. Qed.
  Lemma pow10_plus x y : pow10 (x + y) = pow10 x * pow10 y.
  Proof. unfold pow10. rewrite Rmult_plus_distr_r. apply exp_plus. Qed.
  Lemma pow10_le x y : x <= y -> pow10 x <= pow10 y.
  Proof. intros [H| ->]; [|lra]. left. apply exp_increasing. apply Rmult_lt_compat_r; [apply ln10_pos | exact H]. Qed.
  Lemma log10_le x y : 0 < x -> x <= y -> log10 x <= log10 y.
  Proof. intros H [Q| ->]; [|lra]. left. unfold log10, Rdiv. apply Rmult_lt_compat_r; [apply Rinv_0_lt_compat, ln10_pos | apply ln_increasing; assumption]. Qed.
  Definition Rleb (a b : R) : bool := if Rle_dec a b then true else false.
  Lemma Rleb_spec a b : Rleb a b = true <-> a <= b.
  Proof. unfold Rleb. destruct (Rle_dec a b); split; auto; discriminate. Qed.
  (** the formula of the code *)
  Definition rlse (a b : R) : R := a + log10 (1 + pow10 (b - a)).
  Lemma rlse_sum a b : pow10 (rlse a b) = pow10 a + pow10 b.
  Proof.
    unfold rlse. rewrite pow10_plus, pow10_log10 by (pose proof (pow10_pos (b - a)); lra). rewrite Rmult_plus_distr_l, Rmult_1_r, <- pow10_plus. f_equal. f_equal. lra.
  Qed.
  Lemma rlse_log a b : rlse a b = log10 (pow10 a + pow10 b).
  Proof. rewrite <- rlse_sum, log10_pow10. reflexivity. Qed.
  (** truncation towards zero *)
  Definition trunc (x : R) : Z := if Rle_dec 0 x then Int_part x else (- Int_part (- x))%Z.
  Lemma Int_part_mono x y : x <= y -> (Int_part x <= Int_part y)%Z.
  Proof.
    intros H. destruct (base_Int_part x) as [A1 A2]. destruct (base_Int_part y) as [B1 B2]. apply Z.lt_succ_r. apply lt_IZR. rewrite succ_IZR. lra.
  Qed.
  Lemma Int_part_nonneg x : 0 <= x -> (0 <= Int_part x)%Z.
  Proof. intros H. destruct (base_Int_part x) as [A1 A2]. apply Z.lt_succ_r. apply lt_IZR. rewrite succ_IZR. lra. Qed.
  Lemma trunc_mono x y : x <= y -> (trunc x <= trunc y)%Z.
  Proof.
    intros H. unfold trunc. destruct (Rle_dec 0 x), (Rle_dec 0 y).
    - apply Int_part_mono, H.
    - lra.
    - assert (0 <= Int_part (- x))%Z by (apply Int_part_nonneg; lra). assert (0 <= Int_part y)%Z by (apply Int_part_nonneg; lra). lia.
    - assert (Int_part (- y) <= Int_part (- x))%Z by (apply Int_part_mono; lra). lia.
  Qed.
  Definition R_lsf : lsf.
  Proof.
    refine (@Lsf R 0 Rplus Ropp Rleb rlse (/ 1000000) 1 (fun x => trunc (1000000 * x)) _ _ _ _ _ _ _ _ _ _ _ _ _ _ _).
    - intros; lra.
    - intros; lra.
    - intros; lra.
    - intros; lra.
    - intros a. apply Rleb_spec. lra.
    - intros a b. unfold Rleb. destruct (Rle_dec a b), (Rle_dec b a); auto; lra.
    - intros a b c. rewrite !Rleb_spec. lra.
    - intros a b. rewrite !Rleb_spec. lra.
    - intros a b c. rewrite !Rleb_spec. lra.
    - intros a b. rewrite !rlse_log. rewrite Rplus_comm. reflexivity.
    - intros a b c. rewrite (rlse_log a), (rlse_log (rlse a b)), !rlse_sum. rewrite Rplus_assoc. reflexivity.
    - intros a b c. rewrite !Rleb_spec, !rlse_log. intros H. apply log10_le; [pose proof (pow10_pos a); pose proof (pow10_pos c); lra|]. pose proof (pow10_le H). lra.
    - intros a b. rewrite Rleb_spec, rlse_log. rewrite <- (log10_pow10 a) at 1. apply log10_le; [apply pow10_pos | pose proof (pow10_pos b); lra].
    - unfold Rleb. destruct (Rle_dec (/ 1000000) 0); [lra | reflexivity].
    - intros a b. rewrite Rleb_spec. intros H. apply trunc_mono. lra.
  Defined.
End Real.

(** ** dimensions *)
Section Rational.
  Local Open Scope Qc_scope.
  Definition qpos (q : Qc) : bool := Qle_bool 0 (this q) && negb (Qeq_bool 0 (this q)).
  Lemma qpos_spec q : qpos q = true <-> 0 < q.
  Proof.
    unfold qpos, Qclt. rewrite andb_true_iff, Qle_bool_iff, negb_true_iff. change (this 0) with 0%Q. split.
    - intros [H1 H2]. apply Qle_lteq in H1 as [H|H]; [exact H|]. apply Qeq_bool_iff in H. congruence.
    - intros H. split; [apply Qlt_le_weak, H|]. destruct (Qeq_bool 0 (this q)) eqn:E; [|reflexivity]. apply Qeq_bool_iff in E. rewrite <- E in H. exfalso. exact (Qlt_irrefl 0 H).
  Qed.
  Record qp := Qp { qv : Qc; qok : qpos qv = true }.
  Lemma qp_eq (a b : qp) : qv a = qv b -> a = b.
  Proof. destruct a as [a Ha], b as [b Hb]. cbn. intros ->. f_equal. apply UIP_dec. apply bool_dec. Qed.
  Lemma qp_pos (a : qp) : 0 < qv a. Proof. apply qpos_spec, qok. Qed.
  Lemma qmul_pos (a b : Qc) : 0 < a -> 0 < b -> 0 < a * b.
  Proof. intros Ha Hb. rewrite <- (Qcmult_0_l b). apply Qcmult_lt_compat_r; assumption. Qed.
  Lemma qadd_pos (a b : Qc) : 0 < a -> 0 < b -> 0 < a + b.
  Proof. intros Ha Hb. apply Qclt_le_trans with a; [exact Ha|]. rewrite <- (Qcplus_0_r a) at 1. apply Qcplus_le_compat; [apply Qcle_refl | apply Qclt_le_weak, Hb]. Qed.
  Lemma qinv_pos (a : Qc) : 0 < a -> 0 < / a.
  Proof.
    intros H. destruct (Qclt_le_dec 0 (/ a)) as [Q|Q]; [exact Q|]. exfalso. assert (a * / a = 1) as E by (apply Qcmult_inv_r; intros ->; exact (Qclt_not_eq _ _ H eq_refl)).
    assert (/ a * a <= 0 * a) as F by (apply Qcmult_le_compat_r; [exact Q | apply Qclt_le_weak, H]). rewrite Qcmult_comm, E, Qcmult_0_l in F. apply Qcle_not_lt in F. apply F. reflexivity.
  Qed.
  Definition qmk (q : Qc) (H : 0 < q) : qp := @Qp q (proj2 (qpos_spec q) H).
  Definition qmul (a b : qp) : qp := qmk (qmul_pos (qp_pos a) (qp_pos b)).
  Definition qadd (a b : qp) : qp := qmk (qadd_pos (qp_pos a) (qp_pos b)).
  Definition qinv (a : qp) : qp := qmk (qinv_pos (qp_pos a)).
  Definition qone : qp := @Qp 1 eq_refl.
  Definition qle (a b : qp) : bool := Qle_bool (this (qv a)) (this (qv b)).
  Lemma qle_spec a b : qle a b = true <-> qv a <= qv b.
  Proof. unfold qle. rewrite Qle_bool_iff. reflexivity. Qed.
  Definition qfloor (q : Qc) : Z := (Qnum (this q) / Zpos (Qden (this q)))%Z.
  Lemma qfloor_mono (a b : Qc) : a <= b -> (qfloor a <= qfloor b)%Z.
  Proof.
    unfold Qcle, Qle, qfloor. intros H. apply Z.div_le_lower_bound; [reflexivity|]. destruct (this a) as [n d], (this b) as [m e]. cbn [Qnum Qden] in *.
    assert (Zpos d * (n / Zpos d) <= n)%Z as F by (apply Z.mul_div_le; reflexivity).
    apply Zmult_le_reg_r with (p := Zpos d); [reflexivity|]. apply Z.le_trans with (n * Zpos e)%Z; [|exact H].
    replace (Zpos e * (n / Zpos d) * Zpos d)%Z with (Zpos d * (n / Zpos d) * Zpos e)%Z by ring. apply Z.mul_le_mono_nonneg_r; [discriminate | exact F].
  Qed.
  Definition qkey (a : qp) : Z := if qle qone a then (qfloor (qv a) - 1)%Z else (1 - qfloor (/ qv a))%Z.
  Lemma qinv_le (a b : qp) : qv a <= qv b -> / qv b <= / qv a.
  Proof.
    intros H. pose proof (qp_pos a) as Ha. pose proof (qp_pos b) as Hb. assert (qv a <> 0) as Na by (intros E; rewrite E in Ha; exact (Qclt_not_eq _ _ Ha eq_refl)). assert (qv b <> 0) as Nb by (intros E; rewrite E in Hb; exact (Qclt_not_eq _ _ Hb eq_refl)).
    replace (/ qv b) with (qv a * (/ qv a * / qv b)) by (field; auto). replace (/ qv a) with (qv b * (/ qv a * / qv b)) at 2 by (field; auto).
    apply Qcmult_le_compat_r; [exact H|]. apply Qclt_le_weak, qmul_pos; apply qinv_pos; assumption.
  Qed.
  Lemma qkey_mono (a b : qp) : qle a b = true -> (qkey a <= qkey b)%Z.
  Proof.
    rewrite qle_spec. intros H. unfold qkey. destruct (qle qone a) eqn:Ea, (qle qone b) eqn:Eb.
    - pose proof (qfloor_mono H). lia.
    - apply qle_spec in Ea. exfalso. assert (qle qone b = true) by (apply qle_spec; eapply Qcle_trans; eassumption). congruence.
    - apply qle_spec in Eb. pose proof (qfloor_mono Eb) as Q. change (qfloor (qv qone)) with 1%Z in Q.
      assert (qle a qone = true) as Ea' by (apply qle_spec; destruct (Qclt_le_dec (qv qone) (qv a)) as [F|F]; [exfalso; apply Qclt_le_weak in F; apply qle_spec in F; congruence | exact F]).
      apply qle_spec in Ea'. pose proof (qfloor_mono (qinv_le Ea')) as F. change (qfloor (/ qv qone)) with 1%Z in F. lia.
    - pose proof (qfloor_mono (qinv_le H)). lia.
  Qed.
  (** 1 + 1/100000, in place of 10**1e-6 *)
  Definition qtol : qp := @Qp (Q2Qc (100001 # 100000)) eq_refl.
  Definition qten : qp := @Qp (Q2Qc 10) eq_refl.
  Definition Q_lsf : lsf.
  Proof.
    refine (@Lsf qp qone qmul qinv qle qadd qtol qten qkey _ _ _ _ _ _ _ _ _ _ _ _ _ _ _).
    - intros a. apply qp_eq. cbn. ring.
    - intros a b. apply qp_eq. cbn. ring.
    - intros a b c. apply qp_eq. cbn. ring.
    - intros a. apply qp_eq. cbn. apply Qcmult_inv_r. intros E. pose proof (qp_pos a) as H. rewrite E in H. exact (Qclt_not_eq _ _ H eq_refl).
    - intros a. apply qle_spec, Qcle_refl.
    - intros a b H. apply qle_spec. destruct (Qclt_le_dec (qv b) (qv a)) as [F|F]; [apply Qclt_le_weak, F|]. apply qle_spec in F. congruence.
    - intros a b c. rewrite !qle_spec. apply Qcle_trans.
    - intros a b. rewrite !qle_spec. intros H1 H2. apply qp_eq. apply Qcle_antisym; assumption.
    - intros a b c. rewrite !qle_spec. cbn. intros H. apply Qcmult_le_compat_r; [exact H | apply Qclt_le_weak, qp_pos].
    - intros a b. apply qp_eq. cbn. ring.
    - intros a b c. apply qp_eq. cbn. ring.
    - intros a b c. rewrite !qle_spec. cbn. intros H. apply Qcplus_le_compat; [exact H | apply Qcle_refl].
    - intros a b. rewrite qle_spec. cbn. rewrite <- (Qcplus_0_r (qv a)) at 1. apply Qcplus_le_compat; [apply Qcle_refl | apply Qclt_le_weak, qp_pos].
    - reflexivity.
    - apply qkey_mono.
  Defined.
  (** a dimension as a number *)
  Lemma qdim_pos p : 0 < Q2Qc (Zpos p # 1).
  Proof. apply Qclt_alt. unfold Qccompare. cbn [this Q2Qc]. rewrite !Qred_correct. reflexivity. Qed.
  Definition qdim (p : positive) : Q_lsf := qmk (qdim_pos p).
End Rational.
