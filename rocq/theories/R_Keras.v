(** * C56, where it fails: [DenseCondenser.build] accepts sizes its network cannot take; [DenseMPO.build] takes the leg dimension from
    [math.ceil] of a floating point root, which is one too large when the root is rounded upwards *)
From Coq Require Import ZArith Reals Lra Lia.
From Verif Require Import Prelude Algebra Tensor TensorFacts Res Backends Keras KerasSpec.
Set Implicit Arguments.
Unset Strict Implicit.

(** 10 is not a multiple of 4: the layer is built with the shapes of [condenser_shapes] and then no input is accepted *)
Theorem C56_condenser_refuted : exists n base k out (ws : list (tensor Z_csr)), 0 < out /\ out = condenser_out n base k /\
  map shape ws = condenser_shapes out base k /\
  forall act (inputs : tensor Z_csr) d, 0 < d -> shape inputs = [d; n] -> dense_condenser n base k ws None act inputs = Raise.
Proof.
  exists 10, 2, 2, 2, (repeat (Tensor [2; 2; 2] (fun _ => 0%Z : car Z_csr)) 2). split; [lia|]. split; [reflexivity|]. split; [reflexivity|].
  intros act inputs d Hd Es. unfold dense_condenser, call. rewrite Es. cbn [last Nat.eqb]. replace (nprod [d; 10] / 10) with d by (cbn [nprod fold_right]; replace (d * (10 * 1)) with (d * 10) by lia; rewrite Nat.div_mul by lia; reflexivity).
  destruct d as [|d]; [lia|]. cbn [seq mapr]. reflexivity.
Qed.
Print Assumptions C56_condenser_refuted.

(** ** double precision numbers *)
Open Scope R_scope.
Definition is_double (x : R) : Prop := exists m e : Z, (Z.abs m < 2 ^ 53)%Z /\ (-1074 <= e <= 971)%Z /\ x = IZR m * powerRZ 2 e.
Definition nearest (x r : R) : Prop := is_double r /\ forall d, is_double d -> Rabs (r - x) <= Rabs (d - x).
(** [round] and [math.ceil] *)
Definition rounds_to (r : R) (z : nat) : Prop := Rabs (r - INR z) < / 2.
Definition ceils_to (r : R) (z : nat) : Prop := INR z - 1 < r <= INR z.

Definition y0 : R := 3602879701896397 / 18014398509481984.
Lemma y0_double : is_double y0.
Proof.
  exists 3602879701896397%Z, (-54)%Z. split; [reflexivity|]. split; [lia|]. unfold y0. cbn [powerRZ]. change (Pos.to_nat 54) with 54%nat. unfold Rdiv. f_equal. f_equal.
  rewrite (pow_IZR 2 54). reflexivity.
Qed.
Lemma y0_dist : Rabs (y0 - / 5) = / 90071992547409920.
Proof. rewrite Rabs_right; unfold y0; lra. Qed.
Lemma y0_only y : is_double y -> Rabs (y - / 5) <= / 90071992547409920 -> y = y0.
Proof.
  intros (m & e & Hm & He & Ey) Hn.
  assert (- / 90071992547409920 <= y - / 5 <= / 90071992547409920) as (H1 & H2).
  { pose proof (Rle_abs (y - / 5)). pose proof (Rle_abs (- (y - / 5))) as H'. rewrite Rabs_Ropp in H'. lra. }
  assert (0 < powerRZ 2 e) as Hp by (apply powerRZ_lt; lra).
  destruct (Z_lt_le_dec e (-55)) as [Hlt|Hge].
  - exfalso. assert (powerRZ 2 e <= powerRZ 2 (-56)) as Hle.
    { replace (-56)%Z with (e + (-56 - e))%Z by lia. rewrite powerRZ_add by lra. replace (-56 - e)%Z with (Z.of_nat (Z.to_nat (-56 - e))) by lia.
      rewrite <- pow_powerRZ. assert (1 <= 2 ^ Z.to_nat (-56 - e)) by (apply pow_R1_Rle; lra). nra. }
    assert (powerRZ 2 (-56) = / 72057594037927936) as E56. { cbn [powerRZ]. change (Pos.to_nat 56) with 56%nat. f_equal. rewrite (pow_IZR 2 56). reflexivity. }
    assert (IZR m < 9007199254740992) as Hm'. { apply (IZR_lt m (2 ^ 53)). lia. }
    assert (0 < IZR m) as Hm0 by nra. nra.
  - assert (y = IZR (m * 2 ^ (e + 55)) / 36028797018963968) as EM.
    { rewrite Ey, mult_IZR. replace e with (-55 + (e + 55))%Z at 1 by lia. rewrite powerRZ_add by lra.
      replace (powerRZ 2 (e + 55)) with (IZR (2 ^ (e + 55))).
      - cbn [powerRZ]. change (Pos.to_nat 55) with 55%nat. replace (2 ^ 55)%R with 36028797018963968 by (rewrite (pow_IZR 2 55); reflexivity). field.
      - replace (e + 55)%Z with (Z.of_nat (Z.to_nat (e + 55))) by lia. rewrite <- pow_powerRZ, pow_IZR. reflexivity. }
    set (M := (m * 2 ^ (e + 55))%Z) in *.
    assert (IZR (36028797018963968 - 2) <= IZR (5 * M) <= IZR (36028797018963968 + 2)) as (G1 & G2).
    { rewrite mult_IZR. rewrite minus_IZR, plus_IZR. rewrite EM in H1, H2. lra. }
    apply le_IZR in G1. apply le_IZR in G2. assert (M = 7205759403792794)%Z as EM' by lia. rewrite EM, EM'. unfold y0. lra.
Qed.

Lemma y0_unique y : nearest (/ 5) y -> y = y0.
Proof. intros (D & Hn). apply y0_only; [exact D|]. rewrite <- y0_dist. apply Hn. exact y0_double. Qed.
Lemma y0_nearest : nearest (/ 5) y0.
Proof.
  split; [exact y0_double|]. intros d Hd. rewrite y0_dist. destruct (Rle_lt_dec (Rabs (d - / 5)) (/ 90071992547409920)) as [H|H]; [|lra].
  rewrite (y0_only Hd H), y0_dist. lra.
Qed.

Lemma exp_upper x : x < 1 -> exp x <= / (1 - x).
Proof.
  intros H. pose proof (exp_ineq1_le (- x)) as E. assert (exp x * exp (- x) = 1) as E1 by (rewrite <- exp_plus, Rplus_opp_r; apply exp_0).
  pose proof (exp_pos x) as P. apply (Rmult_le_reg_r (1 - x)); [lra|]. rewrite Rinv_l by lra. nra.
Qed.
Lemma exp_pow x n : exp (INR n * x) = exp x ^ n.
Proof.
  induction n as [|n IH]; [rewrite Rmult_0_l; apply exp_0|]. rewrite S_INR. replace ((INR n + 1) * x) with (x + INR n * x) by ring. rewrite exp_plus, IH. reflexivity.
Qed.
Lemma ln5 : 8 / 5 < ln 5 <= 3.
Proof.
  split.
  - apply exp_lt_inv. rewrite exp_ln by lra. replace (8 / 5) with (INR 160 * / 100) by (replace (INR 160) with 160 by (rewrite INR_IZR_INZ; reflexivity); lra).
    rewrite exp_pow. pose proof (@exp_upper (/ 100) ltac:(lra)) as E. replace (/ (1 - / 100)) with (100 / 99) in E by lra.
    apply (Rle_lt_trans _ ((100 / 99) ^ 160)).
    + apply pow_incr. split; [left; apply exp_pos|exact E].
    + unfold Rdiv. rewrite Rpow_mult_distr, pow_inv. apply (Rmult_lt_reg_r (99 ^ 160)); [apply pow_lt; lra|]. rewrite Rmult_assoc, Rinv_l by (apply pow_nonzero; lra).
      rewrite Rmult_1_r, !pow_IZR, <- mult_IZR. apply IZR_lt. reflexivity.
  - assert (5 <= exp 3) as E.
    { replace 3 with (INR 3 * 1) by (cbn; lra). rewrite exp_pow. pose proof (exp_ineq1_le 1). cbn [pow]. nra. }
    rewrite <- (ln_exp 3). destruct (Rle_lt_or_eq_dec _ _ E) as [G|G]; [left; apply ln_increasing; lra|right; rewrite <- G; reflexivity].
Qed.
Lemma power_y0 : 5 + / 2251799813685248 < Rpower 3125 y0 < 5 + / 1125899906842624.
Proof.
  unfold Rpower. assert (ln 3125 = 5 * ln 5) as El.
  { replace 3125 with (5 * (5 * (5 * (5 * 5)))) by lra. rewrite !ln_mult by lra. ring. }
  rewrite El. replace (y0 * (5 * ln 5)) with (ln 5 + ln 5 / 18014398509481984) by (unfold y0; field). rewrite exp_plus, exp_ln by lra.
  destruct ln5 as (L1 & L2). set (z := ln 5 / 18014398509481984). assert (8 / 5 / 18014398509481984 < z <= / 100) as (Z1 & Z2) by (unfold z; lra). split.
  - pose proof (exp_ineq1_le z). lra.
  - pose proof (@exp_upper z ltac:(lra)) as E. assert (z <= 3 / 18014398509481984) as Z3 by (unfold z; lra).
    assert (/ (1 - z) <= / (1 - 3 / 18014398509481984)) as E' by (apply Rinv_le_contravar; lra). assert (/ (1 - 3 / 18014398509481984) < 1 + / 18014398509481984 * 32 / 10) as E2 by lra. lra.
Qed.
Definition r0 : R := 5 + / 1125899906842624.
Lemma r0_double : is_double r0.
Proof.
  exists 5629499534213121%Z, (-50)%Z. split; [reflexivity|]. split; [lia|]. unfold r0. cbn [powerRZ]. change (Pos.to_nat 50) with 50%nat.
  replace (2 ^ 50)%R with 1125899906842624 by (rewrite (pow_IZR 2 50); reflexivity). lra.
Qed.
Lemma double_gap d : is_double d -> d <= 5 \/ r0 <= d.
Proof.
  intros (m & e & Hm & He & Ed). destruct (Rle_lt_dec d 5) as [H|H]; [left; exact H|right]. assert (0 < powerRZ 2 e) as Hp by (apply powerRZ_lt; lra).
  destruct (Z_lt_le_dec e (-50)) as [Hlt|Hge].
  - exfalso. assert (powerRZ 2 e <= powerRZ 2 (-51)) as Hle.
    { replace (-51)%Z with (e + (-51 - e))%Z by lia. rewrite powerRZ_add by lra. replace (-51 - e)%Z with (Z.of_nat (Z.to_nat (-51 - e))) by lia.
      rewrite <- pow_powerRZ. assert (1 <= 2 ^ Z.to_nat (-51 - e)) by (apply pow_R1_Rle; lra). nra. }
    assert (powerRZ 2 (-51) = / 2251799813685248) as E51. { cbn [powerRZ]. change (Pos.to_nat 51) with 51%nat. f_equal. rewrite (pow_IZR 2 51). reflexivity. }
    assert (IZR m < 9007199254740992) as Hm'. { apply (IZR_lt m (2 ^ 53)). lia. }
    assert (0 < IZR m) as Hm0 by nra. nra.
  - assert (d = IZR (m * 2 ^ (e + 50)) / 1125899906842624) as EM.
    { rewrite Ed, mult_IZR. replace e with (-50 + (e + 50))%Z at 1 by lia. rewrite powerRZ_add by lra.
      replace (powerRZ 2 (e + 50)) with (IZR (2 ^ (e + 50))).
      - cbn [powerRZ]. change (Pos.to_nat 50) with 50%nat. replace (2 ^ 50)%R with 1125899906842624 by (rewrite (pow_IZR 2 50); reflexivity). field.
      - replace (e + 50)%Z with (Z.of_nat (Z.to_nat (e + 50))) by lia. rewrite <- pow_powerRZ, pow_IZR. reflexivity. }
    set (M := (m * 2 ^ (e + 50))%Z) in *. assert (IZR 5629499534213120 < IZR M) as G by (rewrite EM in H; lra). apply lt_IZR in G.
    assert (IZR 5629499534213121 <= IZR M) as G' by (apply IZR_le; lia). rewrite EM. unfold r0. lra.
Qed.
Lemma r0_nearest : nearest (Rpower 3125 y0) r0.
Proof.
  destruct power_y0 as (P1 & P2). set (x := Rpower 3125 y0) in *. fold r0 in P2. split; [exact r0_double|]. intros d Hd.
  assert (Rabs (r0 - x) = r0 - x) as -> by (apply Rabs_right; lra). unfold r0 in *.
  destruct (double_gap Hd) as [H|H]; unfold r0 in *; unfold Rabs; destruct (Rcase_abs _); lra.
Qed.
Lemma root_3125 y r : nearest (/ 5) y -> nearest (Rpower 3125 y) r -> 5 < r < 11 / 2.
Proof.
  intros Hy Hr. rewrite (y0_unique Hy) in Hr. destruct power_y0 as (P1 & P2). set (x := Rpower 3125 y0) in *. destruct Hr as (_ & Hn).
  specialize (Hn _ r0_double). unfold r0 in Hn.
  assert (Rabs (5 + / 1125899906842624 - x) < x - 5) as H5 by (unfold Rabs; destruct (Rcase_abs _); lra).
  unfold Rabs in Hn at 1. destruct (Rcase_abs (r - x)); lra.
Qed.

(** 3125 = 5 ^ 5: the root is 5, but the floating point power is 5.000000000000001; [round] gives 5 and [math.ceil] gives 6.  The layer
    is built with legs of dimension 6 and then no input is accepted *)
Theorem C56_mpo_root_refuted : forall (y r : R) (round_root ceil_root : nat -> nat -> nat),
  nearest (/ 5) y -> nearest (Rpower (INR (5 ^ 5)) y) r -> rounds_to r (round_root (5 ^ 5) 5)%nat -> ceils_to r (ceil_root (5 ^ 5) 5)%nat ->
  forall bond, exists shapes, mpo_build round_root ceil_root (5 ^ 5) (5 ^ 5) 5 bond = Ok (6, 6, shapes)%nat /\
    forall (ws : list (tensor Z_csr)) act inputs d, (0 < d)%nat -> map shape ws = shapes -> shape inputs = [d; 5 ^ 5]%nat ->
      dense_mpo 5 6 (5 ^ 5) ws None act inputs = Raise.
Proof.
  intros y r rr cr Hy Hr R1 R2 bond. assert (INR (5 ^ 5) = 3125) as E5 by (rewrite INR_IZR_INZ; f_equal). rewrite E5 in Hr. destruct (root_3125 Hy Hr) as (B1 & B2).
  set (n := (5 ^ 5)%nat) in *. assert (n <> 0)%nat as Hn by (unfold n; apply Nat.pow_nonzero; lia). 
  assert (rr n 5 = 5)%nat as Err.
  { unfold rounds_to in R1. assert (-1 < INR (rr n 5%nat) - 5 < 1) as (G1 & G2) by (unfold Rabs in R1; destruct (Rcase_abs _); lra).
    rewrite INR_IZR_INZ in G1, G2. assert (IZR 4 < IZR (Z.of_nat (rr n 5%nat))) as G1' by lra. assert (IZR (Z.of_nat (rr n 5%nat)) < IZR 6) as G2' by lra.
    apply lt_IZR in G1'. apply lt_IZR in G2'. lia. }
  assert (cr n 5 = 6)%nat as Ecr.
  { unfold ceils_to in R2. rewrite INR_IZR_INZ in R2. assert (IZR 5 < IZR (Z.of_nat (cr n 5%nat))) as G1' by lra. assert (IZR (Z.of_nat (cr n 5%nat)) < IZR 7) as G2' by lra.
    apply lt_IZR in G1'. apply lt_IZR in G2'. lia. }
  eexists. split.
  - unfold mpo_build, is_perfect_root. rewrite Err, Ecr. fold n. rewrite Nat.eqb_refl. cbn [Nat.ltb Nat.leb negb]. reflexivity.
  - intros ws act inputs d Hd _ Es. unfold dense_mpo, call. rewrite Es. cbn [last].
    replace (n =? 0)%nat with false by (symmetry; apply Nat.eqb_neq; exact Hn).
    replace (nprod [d; n] / n)%nat with d by (cbn [nprod fold_right]; replace (d * (n * 1))%nat with (d * n)%nat by lia; rewrite Nat.div_mul by exact Hn; reflexivity).
    destruct d as [|d]; [lia|]. cbn [seq mapr]. unfold mpo_f at 1. unfold to_shape. cbn [shape].
    assert (nprod (repeat 6 5) <> nprod [n])%nat as Hne.
    { intros E. apply (f_equal Z.of_nat) in E. unfold n in E. cbn [nprod fold_right repeat] in E. rewrite ?Nat.mul_1_r in E. rewrite Nat2Z.inj_pow in E. rewrite !Nat2Z.inj_mul in E. vm_compute in E. discriminate. }
    apply Nat.eqb_neq in Hne. rewrite Hne. reflexivity.
Qed.
Print Assumptions C56_mpo_root_refuted.
Example C56_mpo_root_ex : exists y r (round_root ceil_root : nat -> nat -> nat), nearest (/ 5) y /\ nearest (Rpower (INR (5 ^ 5)) y) r /\
  rounds_to r (round_root (5 ^ 5) 5)%nat /\ ceils_to r (ceil_root (5 ^ 5) 5)%nat.
Proof.
  exists y0, r0, (fun _ _ => 5%nat), (fun _ _ => 6%nat). split; [exact y0_nearest|]. assert (INR (5 ^ 5) = 3125) as -> by (rewrite INR_IZR_INZ; f_equal).
  split; [exact r0_nearest|]. unfold rounds_to, ceils_to, r0. rewrite !INR_IZR_INZ. cbn [Z.of_nat Pos.of_succ_nat Pos.succ]. split; [|lra]. rewrite Rabs_right; lra.
Qed.
