(** * JaxKrylovFacts: the step of the Arnoldi factorisation and the loops *)
From Coq Require Import Field.
From Verif Require Import Prelude Algebra Krylov KrylovFacts KrylovSpec Gmres GmresSpec GmresFacts JaxKrylov JaxKrylovSpec.
Set Implicit Arguments.
Unset Strict Implicit.

Section Fac.
  Context {K : cfd} {V : ips K}.
  Add Field Kf : (cfth K).
  Variable A : V -> V.

  (** the factorisation as functions *)
  Record fac (n : nat) (v : nat -> V) (h : nat -> nat -> K) (f : V) : Prop := {
    f_on : forall i j, i < n -> j < n -> ip (v i) (v j) = delta_ i j;
    f_eq : forall j, j < n -> A (v j) = va (vsum n (fun i => vs (h i j) (v i))) (if S j =? n then f else vz);
    f_perp : forall i, i < n -> ip (v i) f = r0;
    f_hess : forall i j, j < n -> S j < i -> h i j = r0
  }.
  Lemma fac_ext n v h f v' h' : (forall i, i < n -> v' i = v i) -> (forall i j, j < n -> S j <> n \/ i < n -> h' i j = h i j) ->
    (forall i j, j < n -> S j < i -> h' i j = r0) -> fac n v h f -> fac n v' h' f.
  Proof.
    intros Hv Hh Hs [F1 F2 F3 F4]. constructor; auto.
    - intros i j Hi Hj. rewrite !Hv by assumption. auto.
    - intros j Hj. rewrite Hv, F2 by assumption. f_equal. apply vsum_ext. intros i Hi. rewrite Hv, Hh by auto. reflexivity.
    - intros i Hi. rewrite Hv by assumption. auto.
  Qed.
  Lemma nsum0 n : nsum n (fun _ => r0 : K) = r0.
  Proof. induction n as [|n IH]; simpl; [reflexivity|]. rewrite nsum_S, IH. ring. Qed.
  Lemma vs_z a : vs a (vz : V) = vz.
  Proof. apply vec_ext. intros z. rewrite ip_vs, ip_0. ring. Qed.
  Lemma vs_vdiv (f v : V) n : vdiv f n = Val v -> n <> r0 /\ f = vs n v.
  Proof.
    unfold vdiv. destruct (cdec n r0) as [|Hn]; [discriminate|]. intros H. injection H as <-. split; [exact Hn|].
    rewrite vs_mul. replace (n *! cinv n) with (r1 : K) by (field; exact Hn). rewrite vs_1. reflexivity.
  Qed.

  (** one more vector *)
  Lemma fac_step n v h f norm h' w : fac n v h f -> csqrt (ip f f) = Some norm -> norm <> r0 -> f = vs norm (v n) ->
    (forall i j, j < n -> S j <> n \/ i < n -> h' i j = h i j) ->
    (0 < n -> h' n (n - 1) = norm) -> (forall i j, j < n -> S j < i -> h' i j = r0) ->
    (forall i, i <= n -> h' i n = ip (v i) (A (v n))) -> (forall i, S n < i -> h' i n = r0) ->
    w = vsub (A (v n)) (vsum (S n) (fun i => vs (ip (v i) (A (v n))) (v i))) ->
    fac (S n) v h' w.
  Proof.
    intros [F1 F2 F3 F4] Hs Hn Hf Ho Hb Hz Hc Hz' Hw.
    assert (P : forall i, i < n -> ip (v i) (v n) = r0).
    { intros i Hi. pose proof (F3 i Hi) as E. rewrite Hf, ip_vs in E. apply mul_eq0 in E. destruct E; [contradiction|assumption]. }
    assert (U : ip (v n) (v n) = r1).
    { destruct (csqrt_ok Hs) as [E Pn]. rewrite Hf in E. rewrite ip_vs, ip_vsl, (cpos_real Pn) in E.
      assert (E2 : norm *! norm *! (ip (v n) (v n) -! r1) = r0) by (transitivity (norm *! (norm *! ip (v n) (v n)) -! norm *! norm); [ring|rewrite <- E; ring]).
      apply mul_eq0 in E2. destruct E2 as [E2|E2]; [apply mul_eq0 in E2; tauto|].
      transitivity (ip (v n) (v n) -! r1 +! r1); [ring|rewrite E2; ring]. }
    assert (ON : forall i j, i < S n -> j < S n -> ip (v i) (v j) = delta_ i j).
    { intros i j Hi Hj. assert (Ci : i < n \/ i = n) by lia. assert (Cj : j < n \/ j = n) by lia. unfold delta_.
      destruct Ci as [Ci| ->], Cj as [Cj| ->].
      - rewrite F1 by assumption. reflexivity.
      - rewrite P by assumption. destruct (Nat.eqb_spec i n); [lia|reflexivity].
      - rewrite ip_cj, P by assumption. rewrite cj_0. destruct (Nat.eqb_spec n j); [lia|reflexivity].
      - rewrite Nat.eqb_refl. exact U. }
    constructor.
    - exact ON.
    - intros j Hj. destruct (Nat.eqb_spec (S j) (S n)) as [E|E].
      + assert (j = n) as -> by lia. rewrite Hw. apply vec_ext. intros z. rewrite ip_add, ip_sub, !ip_vsum.
        rewrite (@nsum_ext K (S n) (fun i => ip z (vs (h' i n) (v i))) (fun i => ip z (vs (ip (v i) (A (v n))) (v i)))).
        * ring.
        * intros i Hi. rewrite Hc by lia. reflexivity.
      + assert (Cj : j < n) by lia. rewrite F2 by exact Cj. rewrite va_z, vsum_S.
        f_equal.
        * apply vsum_ext. intros i Hi. rewrite Ho by auto. reflexivity.
        * destruct (Nat.eqb_spec (S j) n) as [E1|E1].
          { subst n. replace (S j - 1) with j in Hb by lia. rewrite Hb by lia. exact Hf. }
          { rewrite Hz by lia. rewrite vs_0. reflexivity. }
    - intros i Hi. rewrite Hw, ip_sub, ip_vsum.
      rewrite (@nsum_ext K (S n) (fun j => ip (v i) (vs (ip (v j) (A (v n))) (v j))) (fun j => if j =? i then ip (v i) (A (v n)) else r0)).
      + rewrite (@nsum_single K (S n) _ i Hi) by (intros j Hj1 Hj2; destruct (Nat.eqb_spec j i); [contradiction|reflexivity]).
        rewrite Nat.eqb_refl. ring.
      + intros j Hj. rewrite ip_vs, ON by assumption. unfold delta_. rewrite Nat.eqb_sym. destruct (Nat.eqb_spec j i) as [->|]; ring.
    - intros i j Hj Hij. assert (C : j < n \/ j = n) by lia. destruct C as [C| ->]; [apply Hz; assumption|apply Hz'; assumption].
  Qed.

  (** *** Gram-Schmidt *)
  Lemma nth_map_ip (l : list V) x i : i < length l -> nth i (map (fun r => ip r x) l) r0 = ip (nth i l vz) x.
  Proof. intros H. rewrite (nth_indep _ r0 (ip vz x)) by (rewrite map_length; exact H). exact (map_nth (fun r => ip r x) l vz i). Qed.
  Definition proj (l : list V) (x : V) : V := vsub x (vsum (length l) (fun i => vs (ip (nth i l vz) x) (nth i l vz))).
  Lemma cgs_proj (l : list V) x : fst (cgs_pass l x) = proj l x.
  Proof. unfold cgs_pass, proj. cbn [fst]. f_equal. apply vsum_ext. intros i Hi. rewrite nth_map_ip by exact Hi. reflexivity. Qed.
  Lemma proj_perp l x i : ortho l -> i < length l -> ip (nth i l vz) (proj l x) = r0.
  Proof.
    intros Ho Hi. unfold proj. rewrite ip_sub, ip_vsum. destruct (Ho i i Hi Hi) as [_ [E|E]].
    - rewrite (@nsum_single K _ _ i Hi).
      + rewrite ip_vs, E. ring.
      + intros j Hj Hne. rewrite ip_vs. destruct (Ho i j Hi Hj) as [E1 _]. rewrite E1 by auto. ring.
    - rewrite E, ip_0l. rewrite nsum_zero; [ring|]. intros j Hj. apply ip_0l.
  Qed.
  Lemma proj_fix l x : (forall i, i < length l -> ip (nth i l vz) x = r0) -> proj l x = x.
  Proof.
    intros H. unfold proj. apply vec_ext. intros z. rewrite ip_sub, ip_vsum, nsum_zero; [ring|].
    intros i Hi. rewrite H by exact Hi. rewrite vs_0. apply ip_0.
  Qed.
  Lemma icgs_perp (l : list V) n : forall (x : V) (ov : list K), (forall i, i < length l -> ip (nth i l vz) x = r0) -> length ov = length l -> icgs n l x ov = (x, ov).
  Proof.
    induction n as [|n IH]; intros x ov Hx Hl; [reflexivity|].
    cbn [icgs]. destruct (cgs_pass l x) as [x' o] eqn:E.
    assert (x' = x) as -> by (rewrite <- (proj_fix Hx), <- cgs_proj, E; reflexivity).
    replace (map (fun p => fst p +! snd p) (combine ov o)) with ov; [apply IH; assumption|].
    unfold cgs_pass in E. injection E as _ <-. apply (nth_ext _ _ r0 r0).
    - rewrite map_length, combine_length, map_length. lia.
    - intros i Hi. symmetry. rewrite (nth_indep _ r0 ((fun p : K * K => fst p +! snd p) (r0, r0))) by (rewrite ?map_length, ?combine_length, ?map_length; lia).
      rewrite (map_nth (fun p : K * K => fst p +! snd p)), combine_nth by (rewrite ?map_length; exact Hl). cbn [fst snd].
      rewrite nth_map_ip, Hx by lia. ring.
  Qed.
  Lemma gram_schmidt_ok (l : list V) x w ov : ortho l -> gram_schmidt l x = (w, ov) ->
    w = proj l x /\ length ov = length l /\ forall i, i < length l -> nth i ov r0 = ip (nth i l vz) x.
  Proof.
    intros Ho. unfold gram_schmidt. change 2 with (S 1) at 1. cbn [icgs]. destruct (cgs_pass l x) as [x' o] eqn:E.
    assert (Ex : x' = proj l x) by (rewrite <- cgs_proj, E; reflexivity).
    assert (Eo : map (fun p => fst p +! snd p) (combine (repeat r0 (length l)) o) = o).
    { unfold cgs_pass in E. injection E as _ <-. apply (nth_ext _ _ r0 r0).
      - rewrite map_length, combine_length, repeat_length, map_length. lia.
      - intros i Hi. rewrite map_length, combine_length, repeat_length, map_length in Hi.
        rewrite (nth_indep _ r0 ((fun p : K * K => fst p +! snd p) (r0, r0))) by (rewrite ?map_length, ?combine_length, ?map_length, ?repeat_length; lia).
        rewrite (map_nth (fun p : K * K => fst p +! snd p)), combine_nth by (rewrite ?map_length, ?repeat_length; reflexivity). cbn [fst snd].
        rewrite nth_repeat. ring. }
    rewrite Eo. assert (Lo : length o = length l) by (unfold cgs_pass in E; injection E as _ <-; apply map_length).
    assert (Px : forall i, i < length l -> ip (nth i l vz) x' = r0) by (intros i Hi; rewrite Ex; apply proj_perp; assumption).
    pose proof (icgs_perp 1 Px Lo) as E2. cbn [icgs] in E2. rewrite E2. intros H. injection H as <- <-. split; [exact Ex|]. split; [exact Lo|].
    intros i Hi. unfold cgs_pass in E. injection E as _ <-. apply nth_map_ip. exact Hi.
  Qed.

  (** *** the mask *)
  Lemma mask_length i (l : list V) : length (mask i l) = length l.
  Proof. unfold mask. rewrite map_length, combine_length, seq_length. lia. Qed.
  Lemma mask_nth i (l : list V) j : nth j (mask i l) vz = if j <=? i then nth j l vz else vz.
  Proof.
    unfold mask. destruct (Nat.lt_ge_cases j (length l)) as [H|H].
    - rewrite (nth_indep _ vz ((fun p : nat * V => if fst p <=? i then snd p else vz) (0, vz))) by (rewrite map_length, combine_length, seq_length; lia).
      rewrite (map_nth (fun p : nat * V => if fst p <=? i then snd p else vz)), combine_nth by (rewrite seq_length; reflexivity).
      cbn [fst snd]. rewrite seq_nth by exact H. reflexivity.
    - rewrite !nth_overflow by (rewrite ?map_length, ?combine_length, ?seq_length; lia). destruct (j <=? i); reflexivity.
  Qed.
  Lemma mask_ortho i (l : list V) : i < length l -> (forall a b, a <= i -> b <= i -> ip (nth a l vz) (nth b l vz) = delta_ a b) -> ortho (mask i l).
  Proof.
    intros Hi H a b _ _. rewrite !mask_nth. split.
    - intros Hne. destruct (Nat.leb_spec a i), (Nat.leb_spec b i); rewrite ?ip_0, ?ip_0l; try reflexivity.
      rewrite H by assumption. unfold delta_. destruct (Nat.eqb_spec a b); [contradiction|reflexivity].
    - destruct (Nat.leb_spec a i); [left|right; reflexivity]. rewrite H by assumption. unfold delta_. rewrite Nat.eqb_refl. reflexivity.
  Qed.
  (** sums over the masked vectors *)
  Lemma vsum_cut n m (g : nat -> V) : m <= n -> (forall i, m <= i -> i < n -> g i = vz) -> vsum n g = vsum m g.
  Proof.
    intros Hm H. induction Hm as [|n Hm IH]; [reflexivity|].
    rewrite vsum_S, (H n) by lia. rewrite va_z. apply IH. intros i H1 H2. apply H; lia.
  Qed.
  Lemma proj_mask i (l : list V) x : i < length l ->
    proj (mask i l) x = vsub x (vsum (S i) (fun j => vs (ip (nth j l vz) x) (nth j l vz))).
  Proof.
    intros Hi. unfold proj. f_equal. rewrite mask_length. rewrite (@vsum_cut _ (S i)).
    - apply vsum_ext. intros j Hj. rewrite mask_nth. destruct (Nat.leb_spec j i); [reflexivity|lia].
    - lia.
    - intros j H1 H2. rewrite mask_nth. destruct (Nat.leb_spec j i); [lia|]. apply vs_z.
  Qed.
End Fac.
