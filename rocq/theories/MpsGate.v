(** * MpsGate: [apply_one_site_gate] and [apply_two_site_gate] *)
From Coq Require Import List ZArith Lia Permutation.
From Verif Require Import Prelude Res Algebra Tensor TensorFacts ListFacts Ncon BlockSparse Backends DecompFacts
  Mps MpsSpec MpsNcon MpsSplit MpsState MpsPosition.
Import ListNotations.
Set Implicit Arguments.
Unset Strict Implicit.
Local Open Scope nat_scope.
Local Open Scope csr_scope.

Section Gate.
  Context {R : cjr} {E : Type}.
  Add Ring Rring : (rsr R).
  Notation tensor := (Tensor.tensor R).
  Variable iter : list Z -> list Z.
  Variable qrf : tensor -> res (tensor * tensor).
  Variable svdf : tensor -> res (tensor * list R * tensor).
  Variable nkeep : bool -> option nat -> option E -> list R -> nat.
  Variable err_zero : E -> bool.
  Hypothesis iter_perm : forall l, Permutation (iter l) l.
  Hypothesis Hqr : qr_ok qrf.
  Hypothesis Hsvd : svd_ok svdf.

  (** a linear map on a segment of the chain *)
  Lemma amp_linear A (is : list A) (G : A -> R) (f : A -> list nat) (p x y q : list tensor) l m n r a g1 g' g3 b :
    chain l p m -> chain m x n -> chain m y n -> chain n q r -> a < l -> length g1 = length p -> length g' = length y ->
    (forall i, In i is -> length (f i) = length x) ->
    (forall c e, c < m -> e < n -> amp y c g' e = lsum is (fun i => G i *! amp x c (f i) e)) ->
    amp (p ++ y ++ q) a (g1 ++ g' ++ g3) b = lsum is (fun i => G i *! amp (p ++ x ++ q) a (g1 ++ f i ++ g3) b).
  Proof.
    intros Cp Cx Cy Cq Ha L1 L2 Lf H. rewrite (amp_app _ _ _ Cp Ha L1).
    transitivity (nsum m (fun c => nsum n (fun e => lsum is (fun i => G i *! (amp p a g1 c *! (amp x c (f i) e *! amp q e g3 b)))))).
    - apply nsum_ext. intros c Hc. rewrite (amp_app _ _ _ Cy Hc L2), <- nsum_mul_l. apply nsum_ext. intros e He.
      rewrite (H c e Hc He). rewrite <- lsum_mul_r, <- lsum_mul_l. apply lsum_ext. intros i Hi. ring.
    - unfold nsum. erewrite lsum_ext. 2: { intros c Hc. rewrite lsum_swap. reflexivity. }
      rewrite lsum_swap. apply lsum_ext. intros i Hi. rewrite (amp_app _ _ _ Cp Ha L1).
      unfold nsum. rewrite <- lsum_mul_l. apply lsum_ext. intros c Hc. apply in_seq in Hc. destruct Hc as [_ Hc].
      rewrite (@amp_app R x q m n c (f i) g3 b Cx Hc (Lf i Hi)). unfold nsum. rewrite <- !lsum_mul_l. reflexivity.
  Qed.

  (** ** one site *)
  Lemma one_site l r (m : mps R) (gate : tensor) s d d' : chain l (tens m) r -> nth_error (phys (tens m)) s = Some d -> shape gate = [d'; d] ->
    exists p t q w, tens m = p ++ t :: q /\ length p = s /\
      apply_one_site_gate iter gate (Z.of_nat s) m = Ok (MPS (p ++ w :: q) (centre m)) /\
      chain l (p ++ w :: q) r /\ phys (p ++ w :: q) = phys p ++ d' :: phys q /\
      (exists x y, shape t = [x; d; y] /\ shape w = [x; d'; y] /\
         (forall i u j, i < x -> u < d' -> j < y -> elt w [i; u; j] = nsum d (fun v => elt gate [u; v] *! elt t [i; v; j]))) /\
      forall a b g1 u g3, a < l -> b < r -> length g1 = length p -> u < d' ->
        amp (p ++ w :: q) a (g1 ++ u :: g3) b = nsum d (fun v => elt gate [u; v] *! amp (tens m) a (g1 ++ v :: g3) b).
  Proof.
    intros C Hd Sg. unfold phys in Hd. rewrite nth_error_map in Hd. destruct (nth_error (tens m) s) as [t|] eqn:Et; [|discriminate].
    cbn in Hd. injection Hd as Hd. destruct (nth_error_split3 Et) as (p & q & Ets & Lp).
    pose proof C as C0. rewrite Ets in C0. destruct (proj1 (chain_app _ _ l r) C0) as (x & Cp & (d0 & y & St & Cq)).
    rewrite St in Hd. cbn in Hd. subst d0.
    destruct (@ncon_gate1 R iter iter_perm gate t x d d' y Sg St) as (w & W1 & Sw & W).
    exists p, t, q, w. split; [exact Ets|]. split; [exact Lp|]. split.
    { unfold apply_one_site_gate, guard, rank. rewrite Sg. cbn [length Nat.eqb].
      assert (s < length (tens m)) by (apply nth_error_Some; congruence).
      rewrite (proj2 (Z.ltb_ge _ _)), (proj2 (Z.leb_gt _ _)) by lia. cbn [orb negb]. rewrite Nat2Z.id. unfold get. rewrite Et. cbn [rbind].
      rewrite W1. cbn [rbind]. rewrite Ets, <- Lp, set_nth_app. reflexivity. }
    assert (chain x [w] y) as Cw by (exists d', y; split; [exact Sw | reflexivity]).
    assert (chain x [t] y) as Ct by (exists d, y; split; [exact St | reflexivity]).
    split; [|split; [|split]].
    - apply chain_app. exists x. split; [exact Cp|]. exists d', y. auto.
    - rewrite phys_app. unfold phys. cbn. rewrite Sw. reflexivity.
    - exists x, y. auto.
    - intros a b g1 u g3 Ha Hb L1 Hu. rewrite Ets.
      pose proof (@amp_linear nat (seq 0 d) (fun v => elt gate [u; v]) (fun v => [v]) p [t] [w] q l x y r a g1 [u] g3 b Cp Ct Cw Cq Ha L1 eq_refl) as H.
      cbn [app] in H. unfold nsum. apply H.
      + reflexivity.
      + intros c e Hc He. rewrite (amp_one c u Sw He), (W c u e Hc Hu He). unfold nsum. apply lsum_ext. intros v _.
        rewrite (amp_one c v St He). reflexivity.
  Qed.

  Definition isometry (g : tensor) (d' d : nat) : Prop :=
    forall v v', v < d -> v' < d -> nsum d' (fun u => elt g [u; v] *! cj (elt g [u; v'])) = if v =? v' then r1 else r0.

  Lemma gate_sum (g : tensor) d' d (f f' : nat -> R) : isometry g d' d ->
    nsum d' (fun u => nsum d (fun v => elt g [u; v] *! f v) *! cj (nsum d (fun v => elt g [u; v] *! f' v))) =
    nsum d (fun v => f v *! cj (f' v)).
  Proof.
    intros H. transitivity (nsum d' (fun u => nsum d (fun v => nsum d (fun v' => (elt g [u; v] *! cj (elt g [u; v'])) *! (f v *! cj (f' v')))))).
    - apply nsum_ext. intros u Hu. rewrite cj_nsum, <- nsum_mul_r. apply nsum_ext. intros v Hv. rewrite <- nsum_mul_l.
      apply nsum_ext. intros v' Hv'. rewrite cj_mul. ring.
    - rewrite nsum_swap. apply nsum_ext. intros v Hv. rewrite nsum_swap.
      transitivity (nsum d (fun v' => (if v =? v' then r1 else r0) *! (f v *! cj (f' v')))).
      + apply nsum_ext. intros v' Hv'. rewrite <- (H v v' Hv Hv'), <- nsum_mul_r. reflexivity.
      + apply (nsum_delta_l (fun v' => f v *! cj (f' v')) Hv).
  Qed.

  Lemma gate_left_iso (g t w : tensor) x d d' y : isometry g d' d -> shape t = [x; d; y] -> shape w = [x; d'; y] ->
    (forall i u j, i < x -> u < d' -> j < y -> elt w [i; u; j] = nsum d (fun v => elt g [u; v] *! elt t [i; v; j])) ->
    left_iso t -> left_iso w.
  Proof.
    intros I St Sw W H c c' Hc Hc'. specialize (H c c'). rewrite St in H. rewrite Sw in *. cbn [nth] in *. rewrite <- (H Hc Hc').
    apply nsum_ext. intros a Ha. rewrite <- (gate_sum (fun v => elt t [a; v; c]) (fun v => elt t [a; v; c']) I).
    apply nsum_ext. intros u Hu. rewrite !W by assumption. reflexivity.
  Qed.
  Lemma gate_right_iso (g t w : tensor) x d d' y : isometry g d' d -> shape t = [x; d; y] -> shape w = [x; d'; y] ->
    (forall i u j, i < x -> u < d' -> j < y -> elt w [i; u; j] = nsum d (fun v => elt g [u; v] *! elt t [i; v; j])) ->
    right_iso t -> right_iso w.
  Proof.
    intros I St Sw W H a a' Ha Ha'. specialize (H a a'). rewrite St in H. rewrite Sw in *. cbn [nth] in *. rewrite <- (H Ha Ha').
    rewrite nsum_swap. symmetry. rewrite nsum_swap. apply nsum_ext. intros c Hc.
    rewrite <- (gate_sum (fun v => elt t [a; v; c]) (fun v => elt t [a'; v; c]) I).
    apply nsum_ext. intros u Hu. rewrite !W by assumption. reflexivity.
  Qed.

  Lemma canonical_replace (p q : list tensor) t w c :
    (length p < c -> left_iso t -> left_iso w) -> (c < length p -> right_iso t -> right_iso w) ->
    canonical (p ++ t :: q) c -> canonical (p ++ w :: q) c.
  Proof.
    intros HL HR H i x Hi. destruct (Nat.lt_trichotomy i (length p)) as [Lt|[->|Gt]].
    - apply (H i x). rewrite nth_error_app1 in Hi |- * by lia. exact Hi.
    - rewrite nth_error_app2, Nat.sub_diag in Hi by lia. cbn in Hi. injection Hi as <-.
      destruct (H (length p) t) as [H1 H2]. { rewrite nth_error_app2, Nat.sub_diag by lia. reflexivity. }
      split; auto.
    - apply (H i x). rewrite nth_error_app2 in Hi |- * by lia. destruct (i - length p) eqn:Ei; [lia | exact Hi].
  Qed.

  (** ** two sites *)
  Notation two := (apply_two_site_gate iter qrf svdf nkeep err_zero).
  Definition gated (gate : tensor) d1 d2 (l r : nat) (p : list tensor) (old new : list tensor) : Prop :=
    forall a b g1 u1 u2 g3, a < l -> b < r -> length g1 = length p -> u1 < nth 0 (shape gate) 0 -> u2 < nth 1 (shape gate) 0 ->
      amp new a (g1 ++ u1 :: u2 :: g3) b =
      nsum d1 (fun v1 => nsum d2 (fun v2 => elt gate [u1; u2; v1; v2] *! amp old a (g1 ++ v1 :: v2 :: g3) b)).

  Lemma two_site l r (m m' : mps R) (gate : tensor) s1 s2 d1 d2 e1 e2 msv mte cp rel tw : chain l (tens m) r ->
    nth_error (phys (tens m)) s1 = Some d1 -> nth_error (phys (tens m)) (s1 + 1) = Some d2 -> shape gate = [e1; e2; d1; d2] ->
    two gate (Z.of_nat s1) s2 msv mte cp rel m = Ok (m', tw) ->
    exists p t1 t2 q lt rt, s2 = (Z.of_nat s1 + 1)%Z /\ (cp = None \/ cp = Some (Z.of_nat s1) \/ cp = Some (Z.of_nat s1 + 1)%Z) /\
      tens m = p ++ t1 :: t2 :: q /\ length p = s1 /\ tens m' = p ++ lt :: rt :: q /\
      chain l (tens m') r /\ phys (tens m') = phys p ++ e1 :: e2 :: phys q /\
      (let at2 := match cp with Some c => (c =? s2)%Z | None => false end in
       let svd_path := match mte with Some _ => true | None => false end || match msv with Some _ => true | None => false end in
       centre m' = match centre m with
                   | Some c => if (c =? s1) || (c =? s1 + 1) then Some (if at2 then s1 + 1 else s1) else None
                   | None => None
                   end /\
       (if svd_path then (if at2 then left_iso lt else right_iso rt)
        else (if at2 then right_iso rt else left_iso lt)) /\
       (svd_path = true -> (negb (match msv with Some d => negb (d =? 0) | None => false end || match mte with Some e => negb (err_zero e) | None => false end)
          || match centre m with Some c => (c =? s1) || (c =? s1 + 1) | None => false end) = true) /\
       (svd_path = false -> tw = [])) /\
      ((forall x, In x tw -> x = r0) -> gated gate d1 d2 l r p (tens m) (tens m')).
  Proof.
    intros C H1 H2 Sg H. unfold apply_two_site_gate, guard, rank in H. rewrite Sg in H. cbn [length Nat.eqb] in H.
    destruct (negb ((Z.of_nat s1 <? 0) || (Z.of_nat (length (tens m)) - 1 <=? Z.of_nat s1))%Z) eqn:G1; [|discriminate].
    destruct (negb ((s2 <? 1) || (Z.of_nat (length (tens m)) <=? s2))%Z) eqn:G2; [|discriminate].
    destruct (negb (s2 <=? Z.of_nat s1)%Z) eqn:G3; [|discriminate].
    destruct (s2 =? Z.of_nat s1 + 1)%Z eqn:G4; [|discriminate]. apply Z.eqb_eq in G4.
    destruct (match cp with Some c => (c =? Z.of_nat s1) || (c =? s2) | None => true end)%Z eqn:G5; [|discriminate].
    rewrite Nat2Z.id in H. assert (Z.to_nat s2 = s1 + 1) as E2 by lia. rewrite E2 in H.
    set (truthy := match msv with Some d => negb (d =? 0) | None => false end || match mte with Some e => negb (err_zero e) | None => false end) in *.
    destruct (negb (truthy && negb (match centre m with Some c => (c =? s1) || (c =? s1 + 1) | None => false end))) eqn:G6; [|discriminate].
    unfold phys in H1, H2. rewrite nth_error_map in H1, H2.
    destruct (nth_error (tens m) s1) as [t1|] eqn:Et1; [|discriminate]. destruct (nth_error (tens m) (s1 + 1)) as [t2|] eqn:Et2; [|discriminate].
    cbn in H1, H2. injection H1 as H1. injection H2 as H2. unfold get in H. rewrite Et1, Et2 in H. cbn [rbind] in H.
    destruct (nth_error_split4 Et1 Et2) as (p & q & Ets & Lp).
    pose proof C as C0. rewrite Ets in C0. destruct (proj1 (chain_app _ _ l r) C0) as (x & Cp & (d1' & k & St1 & (d2' & y & St2 & Cq))).
    rewrite St1 in H1. rewrite St2 in H2. cbn in H1, H2. subst d1' d2'.
    destruct (@ncon_gate2 R iter iter_perm t1 t2 gate x d1 k d2 y e1 e2 St1 St2 Sg) as (w & W1 & Sw & W). rewrite W1 in H. cbn [rbind] in H.
    match type of H with rbind ?X ?F = _ => destruct X as [[[[lt rt] site] tw']| |] eqn:EX; [|discriminate|discriminate] end.
    cbn [rbind] in H. injection H as H Htw. subst tw'.
    assert (set_nth (s1 + 1) rt (set_nth s1 lt (tens m)) = p ++ lt :: rt :: q) as ES.
    { rewrite Ets, <- Lp, set_nth_app. replace (length p + 1) with (length (p ++ [lt])) by (rewrite app_length; reflexivity).
      change (lt :: t2 :: q) with ([lt] ++ t2 :: q). rewrite app_assoc, set_nth_app, <- app_assoc. reflexivity. }
    rewrite ES in H.
    set (at2 := match cp with Some c => (c =? s2)%Z | None => false end).
    assert (((match cp with Some c => c | None => Z.of_nat s1 end) =? s2)%Z = at2) as EA.
    { unfold at2. destruct cp; [reflexivity|]. apply Z.eqb_neq. lia. }
    rewrite EA in EX.
    set (svd_path := match mte with Some _ => true | None => false end || match msv with Some _ => true | None => false end) in *.
    assert (exists kk, shape lt = [x; e1; kk] /\ shape rt = [kk; e2; y] /\ site = (if at2 then s1 + 1 else s1) /\
      (if svd_path then (if at2 then left_iso lt else right_iso rt) else (if at2 then right_iso rt else left_iso lt)) /\
      (svd_path = false -> tw = []) /\
      ((forall z, In z tw -> z = r0) -> forall a u1 u2 b, a < x -> u1 < e1 -> u2 < e2 -> b < y ->
        nsum kk (fun c => elt lt [a; u1; c] *! elt rt [c; u2; b]) = elt w [a; u1; u2; b])) as (kk & Slt & Srt & Esite & Iso & Etw & Prod).
    { destruct svd_path.
      - destruct (svd_at svdf nkeep rel msv mte w 2) as [[[[u s] v] tw0]| |] eqn:F; [|discriminate|discriminate]. cbn [rbind] in EX.
        destruct (@svd_at_spec R E svdf nkeep Hsvd w u v s tw0 rel msv mte [x; e1] [e2; y] 2 Sw eq_refl F) as (S1 & S2 & I1 & I2 & P). cbn in S1, S2.
        destruct at2.
        + destruct (@ncon_mt R iter iter_perm (diagflat s) v (length s) (length s) e2 y eq_refl S2) as (z & Z1 & Z2 & Z3). rewrite Z1 in EX. cbn in EX.
          injection EX as <- <- <- <-. exists (length s). split; [exact S1|]. split; [exact Z2|]. split; [reflexivity|].
          split; [exact (cols_iso_left S1 I1)|]. split; [discriminate|]. intros Z a u1 u2 b Ha Hu1 Hu2 Hb.
          etransitivity; [|exact (P Z [a; u1] [u2; b] (valid2 Ha Hu1) (valid2 Hu2 Hb))]. apply nsum_ext. intros c Hc.
          rewrite Z3 by assumption. rewrite (@nsum_single R (length s) _ c).
          * cbn. rewrite Nat.eqb_refl. ring.
          * exact Hc.
          * intros i Hi Ne. cbn. rewrite (proj2 (Nat.eqb_neq c i)) by auto. ring.
        + destruct (@ncon_tm R iter iter_perm u (diagflat s) x e1 (length s) (length s) S1 eq_refl) as (z & Z1 & Z2 & Z3). rewrite Z1 in EX. cbn in EX.
          injection EX as <- <- <- <-. exists (length s). split; [exact Z2|]. split; [exact S2|]. split; [reflexivity|].
          split; [exact (rows_iso_right S2 I2)|]. split; [discriminate|]. intros Z a u1 u2 b Ha Hu1 Hu2 Hb.
          etransitivity; [|exact (P Z [a; u1] [u2; b] (valid2 Ha Hu1) (valid2 Hu2 Hb))]. apply nsum_ext. intros c Hc.
          rewrite Z3 by assumption. rewrite (@nsum_single R (length s) _ c).
          * cbn. rewrite Nat.eqb_refl. ring.
          * exact Hc.
          * intros i Hi Ne. cbn. rewrite (proj2 (Nat.eqb_neq i c)) by auto. ring.
      - destruct at2.
        + destruct (rq_at qrf w 2) as [[rr qq]| |] eqn:F; [|discriminate|discriminate]. cbn in EX. injection EX as <- <- <- <-.
          destruct (@rq_at_spec R qrf Hqr w qq rr [x; e1] [e2; y] 2 Sw eq_refl F) as (S1 & S2 & I1 & P). cbn in S1, S2.
          eexists. split; [exact S1|]. split; [exact S2|]. split; [reflexivity|]. split; [exact (rows_iso_right S2 I1)|]. split; [reflexivity|].
          intros _ a u1 u2 b Ha Hu1 Hu2 Hb. exact (P [a; u1] [u2; b] (valid2 Ha Hu1) (valid2 Hu2 Hb)).
        + destruct (qr_at qrf w 2) as [[qq rr]| |] eqn:F; [|discriminate|discriminate]. cbn in EX. injection EX as <- <- <- <-.
          destruct (@qr_at_spec R qrf Hqr w qq rr [x; e1] [e2; y] 2 Sw eq_refl F) as (S1 & S2 & I1 & P). cbn in S1, S2.
          eexists. split; [exact S1|]. split; [exact S2|]. split; [reflexivity|]. split; [exact (cols_iso_left S1 I1)|]. split; [reflexivity|].
          intros _ a u1 u2 b Ha Hu1 Hu2 Hb. exact (P [a; u1] [u2; b] (valid2 Ha Hu1) (valid2 Hu2 Hb)). }
    exists p, t1, t2, q, lt, rt. split; [exact G4|]. split.
    { destruct cp as [c|]; [|left; reflexivity]. right. apply Bool.orb_true_iff in G5. rewrite !Z.eqb_eq in G5. destruct G5 as [-> | ->]; [left | right]; congruence. }
    subst m'. cbn [tens centre].
    assert (chain x [lt; rt] y) as Cn by (exists e1, kk; split; [exact Slt|]; exists e2, y; split; [exact Srt | reflexivity]).
    assert (chain x [t1; t2] y) as Co by (exists d1, k; split; [exact St1|]; exists d2, y; split; [exact St2 | reflexivity]).
    split; [exact Ets|]. split; [exact Lp|]. split; [reflexivity|]. split; [|split; [|split]].
    - apply chain_app. exists x. split; [exact Cp|]. exists e1, kk. split; [exact Slt|]. exists e2, y. auto.
    - rewrite phys_app. unfold phys. cbn. rewrite Slt, Srt. reflexivity.
    - split; [|split; [exact Iso|split; [|exact Etw]]].
      + unfold set_center_position. rewrite Esite. reflexivity.
      + intros _. revert G6. destruct truthy; cbn; [|reflexivity].
        destruct (match centre m with Some c => (c =? s1) || (c =? s1 + 1) | None => false end); cbn; auto.
    - intros Z a b g1 u1 u2 g3 Ha Hb L1 Hu1 Hu2. rewrite Sg in Hu1, Hu2. cbn [nth] in Hu1, Hu2. rewrite Ets.
      pose proof (@amp_linear (list nat) (idxs [d1; d2]) (fun v => elt gate (u1 :: u2 :: v)) (fun v => v) p [t1; t2] [lt; rt] q l x y r a g1 [u1; u2] g3 b
        Cp Co Cn Cq Ha L1 eq_refl) as L. cbn [app] in L. rewrite L.
      + rewrite lsum_idxs_cons. apply nsum_ext. intros v1 Hv1. rewrite lsum_idxs_cons. apply nsum_ext. intros v2 Hv2. cbn. ring.
      + intros i Hi. apply In_idxs in Hi. apply valid_length in Hi. exact Hi.
      + intros c e Hc He. rewrite (amp_two c u1 u2 Slt Srt He), (Prod Z c u1 u2 e Hc Hu1 Hu2 He), (W c u1 u2 e Hc Hu1 Hu2 He).
        rewrite lsum_idxs_cons. apply nsum_ext. intros v1 Hv1. rewrite lsum_idxs_cons. rewrite nsum_swap. apply nsum_ext. intros v2 Hv2.
        cbn [lsum idxs fold_right]. rewrite (amp_two c v1 v2 St1 St2 He). rewrite nsum_mul_l. ring.
  Qed.

  Lemma canonical_pair (p q : list tensor) t1 t2 lt rt s c : canonical (p ++ t1 :: t2 :: q) c -> (c = length p \/ c = length p + 1) ->
    (s = length p + 1 /\ left_iso lt) \/ (s = length p /\ right_iso rt) -> canonical (p ++ lt :: rt :: q) s.
  Proof.
    intros H Hc Hs i x Hi. destruct (Nat.lt_ge_cases i (length p)) as [Lt|Ge].
    - destruct (H i x) as [H1 H2]. { rewrite nth_error_app1 in Hi |- * by lia. exact Hi. } split; [intros _; apply H1; lia | intros; lia].
    - rewrite nth_error_app2 in Hi by lia. destruct (i - length p) as [|[|j]] eqn:Ei; cbn in Hi.
      + injection Hi as <-. destruct Hs as [[-> I] | [-> I]]; split; intros; try lia. exact I.
      + injection Hi as <-. destruct Hs as [[-> I] | [-> I]]; split; intros; try lia. exact I.
      + destruct (H i x) as [H1 H2]. { rewrite nth_error_app2, Ei by lia. exact Hi. } split; [intros; lia | intros _; apply H2; lia].
  Qed.

  Lemma two_site_total l r (m : mps R) (gate : tensor) s1 d1 d2 e1 e2 msv mte cp rel : chain l (tens m) r ->
    nth_error (phys (tens m)) s1 = Some d1 -> nth_error (phys (tens m)) (s1 + 1) = Some d2 -> shape gate = [e1; e2; d1; d2] ->
    cp = None \/ cp = Some (Z.of_nat s1) \/ cp = Some (Z.of_nat s1 + 1)%Z ->
    total qrf -> (msv = None /\ mte = None) \/ (total svdf /\ (centre m = Some s1 \/ centre m = Some (s1 + 1))) ->
    exists f, two gate (Z.of_nat s1) (Z.of_nat s1 + 1)%Z msv mte cp rel m = Ok f.
  Proof.
    intros C H1 H2 Sg Hcp T0 HT. unfold apply_two_site_gate, guard, rank. rewrite Sg. cbn [length Nat.eqb].
    unfold phys in H1, H2. rewrite nth_error_map in H1, H2.
    destruct (nth_error (tens m) s1) as [t1|] eqn:Et1; [|discriminate]. destruct (nth_error (tens m) (s1 + 1)) as [t2|] eqn:Et2; [|discriminate].
    cbn in H1, H2. injection H1 as H1. injection H2 as H2.
    assert (s1 + 1 < length (tens m)) as Lt by (apply nth_error_Some; congruence).
    rewrite !(proj2 (Z.ltb_ge _ _)), !(proj2 (Z.leb_gt _ _)), Z.eqb_refl by lia. cbn [orb negb].
    assert (match cp with Some c => (c =? Z.of_nat s1) || (c =? Z.of_nat s1 + 1) | None => true end = true)%Z as ->.
    { destruct Hcp as [->|[->| ->]]; rewrite ?Z.eqb_refl, ?Bool.orb_true_r; reflexivity. }
    rewrite Nat2Z.id. assert (Z.to_nat (Z.of_nat s1 + 1) = s1 + 1) as -> by lia.
    match goal with |- context [if negb (?x && ?y) then _ else _] => assert (negb (x && y) = true) as -> end.
    { destruct HT as [[-> ->]|(_ & [-> | ->])]; [reflexivity| |]; rewrite ?Nat.eqb_refl, ?Bool.orb_true_r; cbn; rewrite Bool.andb_false_r; reflexivity. }
    destruct (nth_error_split4 Et1 Et2) as (p & q & Ets & Lp).
    rewrite Ets in C. destruct (proj1 (chain_app _ _ l r) C) as (x & Cp & (d1' & k & St1 & (d2' & y & St2 & Cq))).
    rewrite St1 in H1. rewrite St2 in H2. cbn in H1, H2. subst d1' d2'. unfold get. rewrite Et1, Et2. cbn [rbind].
    destruct (@ncon_gate2 R iter iter_perm t1 t2 gate x d1 k d2 y e1 e2 St1 St2 Sg) as (w & W1 & Sw & W). rewrite W1. cbn [rbind].
    assert (exists f, (if (match cp with Some c => c | None => Z.of_nat s1 end =? Z.of_nat s1 + 1)%Z then
               rbind (rq_at qrf w 2) (fun f => let '(r, q) := f in Ok (r, q, s1 + 1, []))
             else rbind (qr_at qrf w 2) (fun f => let '(q, r) := f in Ok (q, r, s1, []))) = Ok (f : tensor * tensor * nat * list R)) as (f0 & F0).
    { unfold rq_at, qr_at. destruct (T0 (adjoint (as_matrix w 2))) as (f & ->). destruct (T0 (as_matrix w 2)) as (g & ->). cbn [rbind].
      destruct (match cp with Some c => c | None => Z.of_nat s1 end =? Z.of_nat s1 + 1)%Z; [destruct (rq _ _ _ w 2 _) | destruct (qr _ _ _ w 2 _)]; cbn; eexists; reflexivity. }
    destruct (match mte with Some _ => true | None => false end || match msv with Some _ => true | None => false end) eqn:EP.
    - assert (total svdf) as T. { destruct HT as [[-> ->]|[T _]]; [discriminate | exact T]. }
      destruct (svd_at svdf nkeep rel msv mte w 2) as [[[[u s] v] tw0]| |] eqn:F;
        [|unfold svd_at in F; destruct (T (as_matrix w 2)) as (g & G); rewrite G in F; discriminate..].
      destruct (@svd_at_spec R E svdf nkeep Hsvd w u v s tw0 rel msv mte [x; e1] [e2; y] 2 Sw eq_refl F) as (S1 & S2 & I1 & I2 & P). cbn in S1, S2. cbn [rbind].
      destruct (@ncon_mt R iter iter_perm (diagflat s) v (length s) (length s) e2 y eq_refl S2) as (z & -> & _).
      destruct (@ncon_tm R iter iter_perm u (diagflat s) x e1 (length s) (length s) S1 eq_refl) as (z' & -> & _).
      destruct (match cp with Some c => c | None => Z.of_nat s1 end =? Z.of_nat s1 + 1)%Z; cbn; eexists; reflexivity.
    - rewrite F0. destruct f0 as [[[? ?] ?] ?]. cbn. eexists. reflexivity.
  Qed.
End Gate.
