(** * JaxKrylovShift: shifted QR steps keep the factorisation *)
From Coq Require Import Field.
From Verif Require Import Prelude Algebra Krylov KrylovFacts KrylovSpec Gmres GmresSpec GmresFacts GmresMain JaxKrylov JaxKrylovSpec JaxKrylovFacts JaxKrylovArn.
Set Implicit Arguments.
Unset Strict Implicit.

Section Shift.
  Context {K : cfd} {V : ips K}.
  Add Field Kf : (cfth K).
  Variable A : V -> V.
  Hypothesis Hlin : linear A.

  Lemma lin_vsum n (c : nat -> K) (v : nat -> V) : A (vsum n (fun i => vs (c i) (v i))) = vsum n (fun i => vs (c i) (A (v i))).
  Proof.
    destruct Hlin as [L1 L2]. induction n as [|n IH].
    - unfold vsum. cbn [seq fold_right]. rewrite <- (vs_0 (vz : V)) at 1. rewrite L2, vs_0. reflexivity.
    - rewrite !vsum_S, L1, IH, L2. reflexivity.
  Qed.

  (** A V = V H + f q^T *)
  Record full (n : nat) (v : nat -> V) (h : nat -> nat -> K) (f : V) (q : nat -> K) (m : nat) : Prop := {
    fu_on : forall i j, i < n -> j < n -> ip (v i) (v j) = delta_ i j;
    fu_eq : forall j, j < n -> A (v j) = va (vsum n (fun i => vs (h i j) (v i))) (vs (q j) f);
    fu_perp : forall i, i < n -> ip (v i) f = r0;
    fu_hess : forall i j, i < n -> j < n -> S j < i -> h i j = r0;
    fu_q : forall j, j < m -> q j = r0
  }.
  Lemma nsum_delta n (g : nat -> K) a : a < n -> nsum n (fun i => delta_ a i *! g i) = g a.
  Proof.
    intros Ha. rewrite (@nsum_single K n _ a Ha).
    - unfold delta_. rewrite Nat.eqb_refl. ring.
    - intros i Hi Hne. unfold delta_. destruct (Nat.eqb_spec a i); [congruence|ring].
  Qed.
  Lemma nsum_delta' n (g : nat -> K) a : a < n -> nsum n (fun i => g i *! delta_ i a) = g a.
  Proof.
    intros Ha. rewrite (@nsum_single K n _ a Ha).
    - unfold delta_. rewrite Nat.eqb_refl. ring.
    - intros i Hi Hne. unfold delta_. destruct (Nat.eqb_spec i a); [congruence|ring].
  Qed.
  Definition rq (n : nat) (Q R : nat -> nat -> K) (s : K) (i j : nat) : K := nsum n (fun l => R i l *! Q l j) +! s *! delta_ i j.
  Definition rot (n : nat) (Q : nat -> nat -> K) (v : nat -> V) (j : nat) : V := vsum n (fun i => vs (Q i j) (v i)).
  Definition rotq (n : nat) (Q : nat -> nat -> K) (q : nat -> K) (j : nat) : K := nsum n (fun i => q i *! Q i j).

  Section Step.
    Variables (n : nat) (v : nat -> V) (h : nat -> nat -> K) (f : V) (q : nat -> K) (m : nat).
    Variables (Q R : nat -> nat -> K) (s : K).
    Hypothesis F : full n v h f q m.
    Hypothesis Q1 : forall i j, i < n -> j < n -> nsum n (fun k => cj (Q k i) *! Q k j) = delta_ i j.
    Hypothesis Q2 : forall i j, i < n -> j < n -> nsum n (fun k => Q i k *! R k j) = h i j -! s *! delta_ i j.
    Hypothesis Q3 : forall i j, i < n -> j < n -> j < i -> R i j = r0.
    Hypothesis Q4 : forall i j, i < n -> j < n -> S j < i -> Q i j = r0.

    (** Q H' = H Q *)
    Lemma inter a j : a < n -> j < n -> nsum n (fun b => Q a b *! rq n Q R s b j) = nsum n (fun i => h a i *! Q i j).
    Proof.
      intros Ha Hj. unfold rq.
      rewrite (@nsum_ext K n _ (fun b => nsum n (fun l => Q a b *! R b l *! Q l j) +! s *! (Q a b *! delta_ b j))).
      2: { intros b Hb. transitivity (Q a b *! nsum n (fun l => R b l *! Q l j) +! s *! (Q a b *! delta_ b j)); [ring|].
           f_equal. rewrite <- nsum_mul_l. apply nsum_ext. intros l Hl. ring. }
      rewrite nsum_add, nsum_swap, nsum_mul_l, nsum_delta' by exact Hj.
      rewrite (@nsum_ext K n _ (fun l => h a l *! Q l j +! cop s *! (delta_ a l *! Q l j))).
      2: { intros l Hl. rewrite nsum_mul_r, Q2 by assumption. ring. }
      rewrite nsum_add, nsum_mul_l, nsum_delta by exact Ha. ring.
    Qed.
    Lemma shift_full : full n (rot n Q v) (rq n Q R s) f (rotq n Q q) (m - 1).
    Proof.
      destruct F as [F1 F2 F3 F4 F5]. constructor.
      - intros a b Ha Hb. unfold rot. rewrite ip_vsuml.
        rewrite (@nsum_ext K n _ (fun i => cj (Q i a) *! Q i b)); [apply Q1; assumption|].
        intros i Hi. rewrite ip_vsl. f_equal. rewrite ip_vsum.
        rewrite (@nsum_ext K n _ (fun k => delta_ i k *! Q k b)); [exact (nsum_delta (fun k => Q k b) Hi)|].
        intros k Hk. rewrite ip_vs, F1 by assumption. ring.
      - intros j Hj. unfold rot at 1. rewrite lin_vsum.
        apply vec_ext. intros z. rewrite ip_add, !ip_vsum, ip_vs.
        rewrite (@nsum_ext K n (fun i => ip z (vs (Q i j) (A (v i)))) (fun i => nsum n (fun a => h a i *! Q i j *! ip z (v a)) +! q i *! Q i j *! ip z f)).
        2: { intros i Hi. rewrite ip_vs, F2, ip_add, ip_vsum, ip_vs by exact Hi.
             transitivity (Q i j *! nsum n (fun a => ip z (vs (h a i) (v a))) +! q i *! Q i j *! ip z f); [ring|].
             f_equal. rewrite <- nsum_mul_l. apply nsum_ext. intros a Ha. rewrite ip_vs. ring. }
        rewrite nsum_add, nsum_mul_r, nsum_swap. fold (rotq n Q q j). f_equal.
        rewrite (@nsum_ext K n (fun i => ip z (vs (rq n Q R s i j) (rot n Q v i))) (fun b => nsum n (fun a => Q a b *! rq n Q R s b j *! ip z (v a)))).
        2: { intros b Hb. rewrite ip_vs. unfold rot. rewrite ip_vsum, <- nsum_mul_l. apply nsum_ext. intros a Ha. rewrite ip_vs. ring. }
        symmetry. rewrite nsum_swap. apply nsum_ext. intros a Ha. rewrite !nsum_mul_r, inter by assumption. reflexivity.
      - intros i Hi. unfold rot. rewrite ip_vsuml. apply nsum_zero. intros k Hk. rewrite ip_vsl, F3 by exact Hk. ring.
      - intros i j Hi Hj Hij. unfold rq. rewrite nsum_zero.
        + unfold delta_. destruct (Nat.eqb_spec i j); [lia|ring].
        + intros l Hl. destruct (Nat.lt_ge_cases l i) as [C|C]; [rewrite Q3 by assumption|rewrite Q4 by lia]; ring.
      - intros j Hj. unfold rotq. apply nsum_zero. intros i Hi.
        destruct (Nat.lt_ge_cases i m) as [C|C]; [rewrite F5 by exact C|rewrite Q4 by lia]; ring.
    Qed.
    (** (A - s) v_0 = R_00 v'_0 *)
    Lemma shift_first : 0 < n -> 0 < m -> vsub (A (v 0)) (vs s (v 0)) = vs (R 0 0) (rot n Q v 0).
    Proof.
      intros Hn Hm. destruct F as [F1 F2 F3 F4 F5]. apply vec_ext. intros z.
      rewrite ip_sub, F2, ip_add, !ip_vs, F5 by assumption. unfold rot. rewrite !ip_vsum.
      rewrite (@nsum_ext K n (fun i => ip z (vs (h i 0) (v i))) (fun i => nsum n (fun k => Q i k *! R k 0) *! ip z (v i) +! s *! (delta_ 0 i *! ip z (v i)))).
      2: { intros i Hi. rewrite ip_vs, Q2 by assumption. replace (delta_ 0 i : K) with (delta_ i 0 : K); [ring|]. unfold delta_. rewrite Nat.eqb_sym. reflexivity. }
      rewrite nsum_add, nsum_mul_l, (nsum_delta (fun i => ip z (v i)) Hn).
      rewrite (@nsum_ext K n (fun i => nsum n (fun k => Q i k *! R k 0) *! ip z (v i)) (fun i => R 0 0 *! ip z (vs (Q i 0) (v i)))).
      2: { intros i Hi. rewrite (@nsum_single K n _ 0 Hn); [rewrite ip_vs; ring|]. intros k Hk Hne. rewrite Q3 by lia. ring. }
      rewrite nsum_mul_l. ring.
    Qed.
  End Step.

  Lemma full_ext n v h f q m v' h' q' : (forall i, i < n -> v' i = v i) -> (forall i j, i < n -> j < n -> h' i j = h i j) ->
    (forall i, i < n -> q' i = q i) -> m <= n -> full n v h f q m -> full n v' h' f q' m.
  Proof.
    intros Hv Hh Hq Hm [F1 F2 F3 F4 F5]. constructor.
    - intros i j Hi Hj. rewrite !Hv by assumption. auto.
    - intros j Hj. rewrite Hv, F2, Hq by assumption. f_equal. apply vsum_ext. intros i Hi. rewrite Hv, Hh by assumption. reflexivity.
    - intros i Hi. rewrite Hv by assumption. auto.
    - intros i j Hi Hj Hij. rewrite Hh by assumption. auto.
    - intros j Hj. rewrite Hq by lia. auto.
  Qed.
  Notation vat l := (fun i => nth i l vz).
  Lemma nth_map_seq T n (g : nat -> T) i d : i < n -> nth i (map g (seq 0 n)) d = g i.
  Proof.
    intros Hi. rewrite (nth_indep _ d (g 0)) by (rewrite map_length, seq_length; exact Hi). rewrite map_nth, seq_nth by exact Hi. reflexivity.
  Qed.

  Variable qr : mx K -> option (mx K * mx K).
  Hypothesis Hqr : qr_contract qr.

  Lemma delta_if (s : K) i j : (if i =? j then s else r0) = s *! delta_ i j.
  Proof. unfold delta_. destruct (i =? j); ring. Qed.
  Lemma shift_step_ok n Vm Hm1 fm q m s Vm' Hm' q' : length Hm1 = n -> m <= n ->
    full n (vat Vm) (ent Hm1) fm (fun j => nth j q r0) m -> shift_step qr Vm Hm1 q s = Val (Vm', Hm', q') ->
    length Vm' = n /\ square n Hm' /\ full n (vat Vm') (ent Hm') fm (fun j => nth j q' r0) (m - 1) /\
    (0 < n -> 0 < m -> exists c, vsub (A (nth 0 Vm vz)) (vs s (nth 0 Vm vz)) = vs c (nth 0 Vm' vz)).
  Proof.
    intros L Hm0 F E. unfold shift_step in E. rewrite L in E.
    set (M := mkmx n n (fun i j => ent Hm1 i j -! (if i =? j then s else r0))) in E.
    destruct (qr M) as [[Q R]|] eqn:EQ; cbn [ofopt obind] in E; [|discriminate]. injection E as <- <- <-.
    pose proof (Hqr EQ) as HQ. unfold M in HQ at 1. rewrite mkmx_length in HQ. destruct HQ as (Q1 & Q1' & Q2 & Q3 & Q4).
    assert (EM : forall i j, i < n -> j < n -> ent M i j = ent Hm1 i j -! s *! delta_ i j).
    { intros i j Hi Hj. unfold M. rewrite ent_mkmx, delta_if by assumption. reflexivity. }
    assert (Q4' : hessenberg n Q).
    { apply Q4. intros i j Hi Hj Hij. rewrite EM by assumption. rewrite (fu_hess F) by assumption. unfold delta_. destruct (Nat.eqb_spec i j); [lia|ring]. }
    split; [rewrite map_length, seq_length; reflexivity|]. split; [apply square_mkmx|]. split.
    - eapply full_ext; [| | | |apply (@shift_full n (vat Vm) (ent Hm1) fm (fun j => nth j q r0) m (ent Q) (ent R) s F Q1)].
      + intros i Hi. cbn beta. rewrite nth_map_seq by exact Hi. reflexivity.
      + intros i j Hi Hj. rewrite ent_mkmx, delta_if by assumption. reflexivity.
      + intros i Hi. cbn beta. rewrite nth_map_seq by exact Hi. reflexivity.
      + lia.
      + intros i j Hi Hj. rewrite Q2, EM by assumption. reflexivity.
      + exact Q3.
      + exact Q4'.
    - intros Hn Hm. exists (ent R 0 0). rewrite nth_map_seq by exact Hn.
      apply (@shift_first n (vat Vm) (ent Hm1) fm (fun j => nth j q r0) m (ent Q) (ent R) s F); try assumption.
      intros i j Hi Hj. rewrite Q2, EM by assumption. reflexivity.
  Qed.

  (** the polynomial filter of the first vector *)
  Lemma filter_vs shifts : forall c x, filter_ A shifts (vs c x) = vs c (filter_ A shifts x).
  Proof.
    destruct Hlin as [L1 L2]. unfold filter_. induction shifts as [|s l IH]; intros c x; [reflexivity|]. cbn [fold_left]. rewrite <- IH. f_equal.
    rewrite L2. apply vec_ext. intros z. rewrite ip_sub, !ip_vs, ip_sub, ip_vs. ring.
  Qed.
  Lemma shift_steps_ok n fm shifts : forall Vm Hm q m Vm' Hm' q', length Vm = n -> square n Hm -> m <= n ->
    full n (vat Vm) (ent Hm) fm (fun j => nth j q r0) m -> shift_steps qr Vm Hm q shifts = Val (Vm', Hm', q') ->
    length Vm' = n /\ square n Hm' /\ full n (vat Vm') (ent Hm') fm (fun j => nth j q' r0) (m - length shifts) /\
    (0 < n -> length shifts <= m -> exists c, filter_ A shifts (nth 0 Vm vz) = vs c (nth 0 Vm' vz)).
  Proof.
    induction shifts as [|s l IH]; intros Vm Hm q m Vm' Hm' q' Lv Sq Hm0 F E; cbn [shift_steps] in E.
    - injection E as <- <- <-. split; [exact Lv|]. split; [exact Sq|]. split; [rewrite Nat.sub_0_r; exact F|].
      intros _ _. exists r1. rewrite vs_1. reflexivity.
    - destruct (shift_step qr Vm Hm q s) as [[[V1 H1] q1]| |] eqn:Es; cbn [obind] in E; try discriminate.
      destruct (shift_step_ok (proj1 Sq) Hm0 F Es) as (L1 & S1 & F1 & P1).
      destruct (IH _ _ _ (m - 1) _ _ _ L1 S1 ltac:(lia) F1 E) as (L2 & S2 & F2 & P2).
      split; [exact L2|]. split; [exact S2|]. cbn [length]. split.
      { replace (m - S (length l)) with (m - 1 - length l) by lia. exact F2. }
      intros Hn Hl. destruct (P1 Hn ltac:(lia)) as [c1 E1]. destruct (P2 Hn ltac:(lia)) as [c2 E2].
      exists (c1 *! c2). unfold filter_. cbn [fold_left]. fold (filter_ A l (vsub (A (nth 0 Vm vz)) (vs s (nth 0 Vm vz)))).
      rewrite E1, filter_vs, E2, vs_mul. reflexivity.
  Qed.

  Lemma shifted_qr_ok n k Vm Hm fm shifts Vk Hk fk : length Vm = n -> square n Hm -> fac A n (vat Vm) (ent Hm) fm ->
    0 < k -> k < n -> length shifts = n - k -> shifted_qr qr Vm Hm fm shifts k = Val (Vk, Hk, fk) ->
    length Vk = n /\ square n Hk /\ fac A k (vat Vk) (ent Hk) fk /\
    (exists c, filter_ A shifts (nth 0 Vm vz) = vs c (nth 0 Vk vz)) /\
    (forall i j, i < n -> j < n -> ip (nth i Vk vz) (nth j Vk vz) = delta_ i j).
  Proof.
    intros Lv Sq F Hk0 Hkn Ls E. unfold shifted_qr in E. rewrite (proj1 Sq) in E.
    destruct (shift_steps qr Vm Hm _ shifts) as [[[V1 H1] q1]| |] eqn:Es; cbn [obind] in E; try discriminate.
    injection E as <- <- <-.
    assert (F0 : full n (vat Vm) (ent Hm) fm (fun j => nth j (put (repeat r0 n) (n - 1) r1) r0) (n - 1)).
    { constructor.
      - exact (f_on F).
      - intros j Hj. rewrite (f_eq F) by exact Hj. f_equal. destruct (Nat.eqb_spec (S j) n) as [C|C].
        + replace (n - 1) with j by lia. rewrite put_same by (rewrite repeat_length; lia). rewrite vs_1. reflexivity.
        + rewrite put_other by lia. rewrite nth_repeat, vs_0. reflexivity.
      - exact (f_perp F).
      - intros i j Hi Hj Hij. apply (f_hess F); assumption.
      - intros j Hj. rewrite put_other by lia. apply nth_repeat. }
    assert (N1 : n - 1 <= n) by lia. destruct (shift_steps_ok Lv Sq N1 F0 Es) as (L1 & S1 & F1 & P1).
    split; [exact L1|]. split; [exact S1|]. split; [|split; [apply P1; lia|exact (fu_on F1)]].
    replace (n - 1 - length shifts) with (k - 1) in F1 by lia.
    replace (Nat.min k (n - 1)) with k by lia. destruct (Nat.eqb_spec k 0); [lia|].
    destruct F1 as [G1 G2 G3 G4 G5]. constructor.
    - intros i j Hi Hj. apply G1; lia.
    - intros j Hj. rewrite G2 by lia. destruct (Nat.eqb_spec (S j) k) as [C|C].
      + replace (k - 1) with j by lia. rewrite (@vsum_cut K V n (S k)).
        * rewrite vsum_S. rewrite va_assoc. reflexivity.
        * lia.
        * intros i H1' H2'. rewrite G4 by lia. apply vs_0.
      + rewrite G5 by lia. rewrite vs_0. f_equal. apply vsum_cut; [lia|]. intros i H1' H2'. rewrite G4 by lia. apply vs_0.
    - intros i Hi. rewrite ip_add, !ip_vs, G3, G1 by lia. unfold delta_. destruct (Nat.eqb_spec i k); [lia|ring].
    - intros i j Hj Hij. destruct (Nat.lt_ge_cases i n) as [C|C]; [apply G4; lia|apply (ent_row_over _ S1 C)].
  Qed.

  (** what restarts from numeig vectors use *)
  Lemma cut_ok n k Vk Hk fk : length Vk = n -> square n Hk -> k <= n -> fac A k (vat Vk) (ent Hk) fk ->
    length (cut_v k Vk) = n /\ square n (cut_h k Hk) /\ fac A k (vat (cut_v k Vk)) (ent (cut_h k Hk)) fk.
  Proof.
    intros L Sq Hk0 F. split; [unfold cut_v; rewrite app_length, firstn_length, repeat_length; lia|].
    assert (S' : square n (cut_h k Hk)) by (unfold cut_h; rewrite (proj1 Sq); apply square_mkmx).
    split; [exact S'|].
    assert (E : forall i j, i < k -> j < k -> ent (cut_h k Hk) i j = ent Hk i j).
    { intros i j Hi Hj. unfold cut_h. rewrite (proj1 Sq), ent_mkmx by lia.
      destruct (Nat.ltb_spec i k), (Nat.ltb_spec j k); try lia. reflexivity. }
    assert (Z : forall i j, k <= i -> ent (cut_h k Hk) i j = r0).
    { intros i j Hi. destruct (Nat.lt_ge_cases i n) as [C|C]; [|apply (ent_row_over _ S' C)].
      destruct (Nat.lt_ge_cases j n) as [C'|C']; [|apply (ent_col_over _ S' C')].
      unfold cut_h. rewrite (proj1 Sq), ent_mkmx by lia. destruct (Nat.ltb_spec i k); [lia|reflexivity]. }
    constructor.
    - intros i j Hi Hj. unfold cut_v. rewrite !app_nth1 by (rewrite firstn_length; lia). rewrite !firstn_nth by assumption. apply (f_on F); assumption.
    - intros j Hj. unfold cut_v. rewrite !app_nth1 by (rewrite firstn_length; lia). rewrite !firstn_nth by assumption. rewrite (f_eq F) by exact Hj.
      f_equal. apply vsum_ext. intros i Hi. rewrite app_nth1 by (rewrite firstn_length; lia). rewrite firstn_nth, E by assumption. reflexivity.
    - intros i Hi. unfold cut_v. rewrite !app_nth1 by (rewrite firstn_length; lia). rewrite !firstn_nth by assumption. apply (f_perp F); assumption.
    - intros i j Hj Hij. destruct (Nat.lt_ge_cases i k) as [C|C]; [rewrite E by lia; apply (f_hess F); assumption|apply Z; exact C].
  Qed.
End Shift.
