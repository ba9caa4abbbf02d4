(** * DmrgLocal: the local eigenproblem is the restriction of the operator; the energy *)
From Coq Require Import List ZArith Lia Permutation.
From Verif Require Import Prelude Res Algebra Tensor TensorFacts ListFacts BlockSparse Backends DecompFacts Mps MpsSpec MpsNcon MpsSplit MpsState MpsPosition
  MpsCanon MpsEnv MpsMeasureSpec MpsDouble Dmrg DmrgNcon DmrgSpec DmrgTriple DmrgBlock DmrgMatvec DmrgFacts DmrgMain DmrgRun.
Import ListNotations.
Set Implicit Arguments.
Unset Strict Implicit.
Local Open Scope nat_scope.
Local Open Scope csr_scope.

Section Local.
  Context {R : cjr} {E : Type}.
  Notation tensor := (Tensor.tensor R).
  Variable iter : list Z -> list Z.
  Hypothesis iter_perm : forall l, Permutation (iter l) l.
  Variables (wl wr l r : nat) (lb rb : tensor).
  Hypothesis Slb : shape lb = [wl; l; l].
  Hypothesis Srb : shape rb = [wr; r; r].
  Notation sound := (sound wl wr l r lb rb).
  Add Ring Rring : (rsr R).

  Lemma split_at A (xs : list A) n x : nth_error xs n = Some x -> xs = firstn n xs ++ [x] ++ skipn (n + 1) xs.
  Proof. intros H. rewrite <- (firstn_skipn n xs) at 1. rewrite (skipn_cons H). reflexivity. Qed.
  Lemma split_at2 A (xs : list A) n x y : nth_error xs n = Some x -> nth_error xs (n + 1) = Some y -> xs = firstn n xs ++ [x; y] ++ skipn (n + 1 + 1) xs.
  Proof. intros H1 H2. rewrite <- (firstn_skipn n xs) at 1. rewrite (skipn_cons H1), (skipn_cons H2). reflexivity. Qed.
  Lemma firstn_len A n (xs : list A) x : nth_error xs n = Some x -> length (firstn n xs) = n.
  Proof. intros H. rewrite firstn_length. assert (n < length xs) by (apply nth_error_Some; congruence). lia. Qed.

  Lemma local_1s c d t L Rr W x y : sound c d -> nth_error (tens (dmps d)) c = Some t -> dget (lenvs d) c = Ok L -> dget (renvs d) c = Ok Rr -> nth_error (dmpo d) c = Some W ->
    shape x = shape t -> shape y = shape t ->
    exists v, single_site_matvec iter x L W Rr = Ok v /\ shape v = shape t /\
    lsum (idxs (shape t)) (fun ix => cj (elt y ix) *! elt v ix) =
    matrix_element lb rb (phys (tens (dmps d))) (dmpo d)
      (block_amp (firstn c (tens (dmps d))) y (skipn (c + 1) (tens (dmps d))) 1) (block_amp (firstn c (tens (dmps d))) x (skipn (c + 1) (tens (dmps d))) 1).
  Proof.
    intros Sd Ht HL HR HW Sx Sy. pose proof (s_lt Sd) as Lc. destruct (chain_shape (s_chain Sd) Ht) as (m & dd & k & St). rewrite St in *.
    destruct (centre_shapes Sd Ht St HL HR HW) as (w & w' & SL & SW & SR).
    destruct (matvec1_form iter_perm y SL SR SW Sx) as (v & Ev & Sv & V). exists v. split; [exact Ev|]. split; [exact Sv|]. rewrite V.
    destruct (s_left Sd (le_n c) HL) as (k1 & wk1 & C1 & O1 & SL' & VL). rewrite SL in SL'. injection SL' as <- <- _.
    destruct (s_right Sd (n := c) (conj (le_n c) Lc) HR) as (k2 & wk2 & C2 & O2 & SR' & VR). rewrite SR in SR'. injection SR' as <- <- _.
    assert (phys (tens (dmps d)) = phys (firstn c (tens (dmps d))) ++ [dd] ++ phys (skipn (c + 1) (tens (dmps d)))) as EP.
    { rewrite (split_at Ht) at 1. rewrite !phys_app. cbn [phys map]. rewrite St. reflexivity. }
    rewrite EP, (split_at HW) at 1.
    assert (ochain w [W] [dd] w') as Om by (exists w'; split; [exact SW | reflexivity]).
    refine (eq_sym (eq_trans (element_split (lb := lb) (rb := rb) (n := 1) Slb Srb C1 C2 O1 Om O2 eq_refl Sx Sy) _)).
    apply lsum_ext. intros z Hz. apply in_idxs3 in Hz. apply lsum_ext. intros z' Hz'. apply in_idxs3 in Hz'.
    rewrite (VL z Hz), (VR z' Hz'). reflexivity.
  Qed.

  Lemma local_2s c s d t1 t2 L Rr W1 W2 x y m dd k ee j : sound c d -> s <= c <= s + 1 -> nth_error (tens (dmps d)) s = Some t1 -> nth_error (tens (dmps d)) (s + 1) = Some t2 ->
    dget (lenvs d) s = Ok L -> dget (renvs d) (s + 1) = Ok Rr -> nth_error (dmpo d) s = Some W1 -> nth_error (dmpo d) (s + 1) = Some W2 ->
    shape t1 = [m; dd; k] -> shape t2 = [k; ee; j] -> shape x = [m; dd; ee; j] -> shape y = [m; dd; ee; j] ->
    exists v, two_site_matvec iter x L W1 W2 Rr = Ok v /\ shape v = [m; dd; ee; j] /\
    lsum (idxs [m; dd; ee; j]) (fun ix => cj (elt y ix) *! elt v ix) =
    matrix_element lb rb (phys (tens (dmps d))) (dmpo d)
      (block_amp (firstn s (tens (dmps d))) y (skipn (s + 2) (tens (dmps d))) 2) (block_amp (firstn s (tens (dmps d))) x (skipn (s + 2) (tens (dmps d))) 2).
  Proof.
    intros Sd Hs H1 H2 HL HR HW1 HW2 S1 S2 Sx Sy. replace (s + 2) with (s + 1 + 1) by lia.
    destruct (pair_shapes Sd Hs H1 H2 S1 S2 HL HR HW1 HW2) as (w & w' & w'' & SL & SW1 & SW2 & SR).
    destruct (matvec2_form iter_perm y SL SR SW1 SW2 Sx) as (v & Ev & Sv & V). exists v. split; [exact Ev|]. split; [exact Sv|]. rewrite V.
    destruct (s_left Sd (proj1 Hs) HL) as (k1 & wk1 & C1 & O1 & SL' & VL). rewrite SL in SL'. injection SL' as <- <- _.
    assert (s + 1 < length (tens (dmps d))) as Ls by (apply nth_error_Some; congruence).
    destruct (s_right Sd (n := s + 1) (conj (proj2 Hs) Ls) HR) as (k2 & wk2 & C2 & O2 & SR' & VR). rewrite SR in SR'. injection SR' as <- <- _.
    assert (phys (tens (dmps d)) = phys (firstn s (tens (dmps d))) ++ [dd; ee] ++ phys (skipn (s + 1 + 1) (tens (dmps d)))) as EP.
    { rewrite (split_at2 H1 H2) at 1. rewrite !phys_app. cbn [phys map]. rewrite S1, S2. reflexivity. }
    rewrite EP, (split_at2 HW1 HW2) at 1.
    assert (ochain w [W1; W2] [dd; ee] w'') as Om by (exists w'; split; [exact SW1 | exists w''; split; [exact SW2 | reflexivity]]).
    refine (eq_sym (eq_trans (element_split (lb := lb) (rb := rb) (n := 2) Slb Srb C1 C2 O1 Om O2 eq_refl Sx Sy) _)).
    apply lsum_ext. intros z Hz. apply in_idxs3 in Hz. apply lsum_ext. intros z' Hz'. apply in_idxs3 in Hz'.
    rewrite (VL z Hz), (VR z' Hz'). reflexivity.
  Qed.
  (** ** the block is embedded isometrically *)
  Lemma lsum_prod A B (xs : list A) (ys : list B) (F : A * B -> R) : lsum (list_prod xs ys) F = lsum xs (fun x => lsum ys (fun y => F (x, y))).
  Proof. rewrite (lsum_pair xs ys (fun x y => F (x, y))). apply lsum_ext. intros [x y] _. reflexivity. Qed.
  Lemma block_isometry (p q : list tensor) (x y : tensor) m k dm n : chain l p m -> chain k q r ->
    (forall t, In t p -> left_iso t) -> (forall t, In t q -> right_iso t) -> length dm = n -> shape x = m :: dm ++ [k] -> shape y = m :: dm ++ [k] ->
    overlap l r (phys p ++ dm ++ phys q) (block_amp p y q n) (block_amp p x q n) = lsum (idxs (shape x)) (fun ix => cj (elt y ix) *! elt x ix).
  Proof.
    intros Cp Cq Ip Iq Ld Sx Sy. unfold overlap.
    set (f := fun (z : nat * nat) (i : nat * list nat) => amp p (fst i) (snd i) (fst z) *! cj (amp p (fst i) (snd i) (snd z))).
    set (g := fun (z z' : nat * nat) (s : list nat) => elt x (fst z :: s ++ [fst z']) *! cj (elt y (snd z :: s ++ [snd z']))).
    set (h := fun (z' : nat * nat) (i : nat * list nat) => amp q (fst z') (snd i) (fst i) *! cj (amp q (snd z') (snd i) (fst i))).
    set (zm := list_prod (seq 0 m) (seq 0 m)). set (zk := list_prod (seq 0 k) (seq 0 k)).
    transitivity (lsum (list_prod (seq 0 l) (idxs (phys p))) (fun i => lsum (idxs dm) (fun j => lsum (list_prod (seq 0 r) (idxs (phys q))) (fun i' =>
      lsum zm (fun z => lsum zk (fun z' => f z i *! (g z z' j *! h z' i'))))))).
    - rewrite lsum_prod.
      unfold nsum at 1. apply lsum_ext. intros a _.
      transitivity (lsum (idxs (phys p)) (fun s1 => lsum (idxs dm) (fun s2 => lsum (seq 0 r) (fun b => lsum (idxs (phys q)) (fun s3 =>
        lsum zm (fun z => lsum zk (fun z' => f z (a, s1) *! (g z z' s2 *! h z' (b, s3))))))))).
      + transitivity (lsum (seq 0 r) (fun b => lsum (idxs (phys p)) (fun s1 => lsum (idxs dm) (fun s2 => lsum (idxs (phys q)) (fun s3 =>
          lsum zm (fun z => lsum zk (fun z' => f z (a, s1) *! (g z z' s2 *! h z' (b, s3))))))))).
        2: { rewrite lsum_swap. apply lsum_ext. intros s1 _. apply lsum_swap. }
        apply lsum_ext. intros b _. rewrite lsum_idxs_app. apply lsum_ext. intros s1 H1. rewrite lsum_idxs_app. apply lsum_ext. intros s2 H2. apply lsum_ext. intros s3 H3.
        apply In_idxs in H1, H2. apply valid_length in H1, H2. rewrite phys_length in H1.
        rewrite (block_parts q a b s3 Sx Ld) by congruence. rewrite (block_parts q a b s3 Sy Ld) by congruence.
        unfold zm. rewrite lsum_prod.
        match goal with |- ?A *! ?B = _ => transitivity (B *! A); [ring|] end. rewrite <- nsum_mul_r. unfold nsum at 1. apply lsum_ext. intros c _.
        rewrite cj_nsum, <- nsum_mul_l. unfold nsum at 1. apply lsum_ext. intros c' _.
        unfold zk. rewrite lsum_prod.
        rewrite <- nsum_mul_r. unfold nsum at 1. apply lsum_ext. intros e _. rewrite cj_nsum, <- nsum_mul_l. unfold nsum at 1. apply lsum_ext. intros e' _.
        unfold f, g, h. cbn [fst snd]. rewrite !cj_mul. ring.
      + apply lsum_ext. intros s1 _. apply lsum_ext. intros s2 _.
        symmetry. apply lsum_prod.
    - rewrite fact3. unfold zm, zk.
      rewrite lsum_prod.
      rewrite Sx, lsum_idxs_cons. change (lsum (seq 0 m)) with (@nsum R m). apply nsum_ext. intros c Hc.
      transitivity (nsum m (fun c' => (if c =? c' then r1 else r0) *! lsum (idxs dm) (fun s => nsum k (fun e => cj (elt y (c' :: s ++ [e])) *! elt x (c :: s ++ [e]))))).
      + apply nsum_ext. intros c' Hc'.
        assert (lsum (list_prod (seq 0 l) (idxs (phys p))) (f (c, c')) = if c =? c' then r1 else r0) as ->.
        { rewrite <- (left_part_iso Cp Ip Hc Hc'). unfold left_part, nsum, f. cbn [fst snd].
          rewrite lsum_prod. reflexivity. }
        rewrite lsum_mul_l. f_equal.
        rewrite lsum_prod.
        unfold nsum. rewrite (lsum_swap (idxs dm)). change (lsum (seq 0 k)) with (@nsum R k). apply nsum_ext. intros e He.
        transitivity (nsum k (fun e' => (if e =? e' then r1 else r0) *! lsum (idxs dm) (fun s => cj (elt y (c' :: s ++ [e'])) *! elt x (c :: s ++ [e])))).
        * apply nsum_ext. intros e' He'.
          assert (lsum (list_prod (seq 0 r) (idxs (phys q))) (h (e, e')) = if e =? e' then r1 else r0) as ->.
          { rewrite <- (right_part_iso Cq Iq He He'). unfold right_part, nsum, h. cbn [fst snd].
            rewrite lsum_prod. reflexivity. }
          transitivity ((if e =? e' then r1 else r0) *! lsum (idxs dm) (g (c, c') (e, e'))); [ring|]. f_equal. apply lsum_ext. intros s _. unfold g. cbn [fst snd]. ring.
        * rewrite (nsum_delta_l (fun e' => lsum (idxs dm) (fun s => cj (elt y (c' :: s ++ [e'])) *! elt x (c :: s ++ [e]))) He). reflexivity.
      + rewrite (nsum_delta_l (fun c' => lsum (idxs dm) (fun s => nsum k (fun e => cj (elt y (c' :: s ++ [e])) *! elt x (c :: s ++ [e])))) Hc).
        rewrite lsum_idxs_app. apply lsum_ext. intros s _. rewrite lsum_idxs_cons. apply nsum_ext. intros e _. symmetry. apply lsum_nil1.
  Qed.

  (** ** the energy *)
  Variable qrf : tensor -> res (tensor * tensor).
  Variable svdf : tensor -> res (tensor * list R * tensor).
  Variable nkeep : bool -> option nat -> option E -> list R -> nat.
  Variable err_ge1 : E -> bool.
  Variable nrm : tensor -> R.
  Variable rdiv : R -> R -> R.
  Hypothesis Hqr : qr_ok qrf.
  Hypothesis Hsvd : svd_ok svdf.
  Notation compute_energy := (compute_energy iter qrf svdf nkeep err_ge1 nrm rdiv).
  Notation restart := (restart iter qrf svdf nkeep err_ge1 nrm rdiv).

  Lemma energy_value d : anchored d -> sound 0 d -> ready 0 d ->
    exists Rr t W X L v, dget (renvs d) 0 = Ok Rr /\ get (tens (dmps d)) 0 = Ok t /\ get (dmpo d) 0 = Ok W /\ add_right_layer iter Rr t W = Ok X /\
      dget (lenvs d) 0 = Ok L /\ ncon_z iter [X; L] [[1; 2; 3]; [1; 2; 3]]%Z = Ok v /\
      elt v [] = matrix_element lb rb (phys (tens (dmps d))) (dmpo d) (amp (tens (dmps d))) (amp (tens (dmps d))).
  Proof.
    intros [(L & HL) _] Sd [_ RR]. pose proof (s_lt Sd) as Lc. destruct (RR 0 (conj (le_n 0) Lc)) as (Rr & HR). destruct (mpo_nth Sd Lc) as (W & HW).
    destruct (nth_error (tens (dmps d)) 0) as [t|] eqn:Ht; [|apply nth_error_None in Ht; lia].
    set (ts := tens (dmps d)) in *. set (ws := dmpo d) in *. set (dt := Tensor [l; 1; l] (fun _ => r0) : tensor). set (dw := Tensor [wl; wl; 1; 1] (fun _ => r0) : tensor).
    assert (chain l (dt :: ts) r) as C1 by (exists 1, l; split; [reflexivity | apply Sd]).
    assert (ochain wl (dw :: ws) (phys (dt :: ts)) wr) as O1 by (exists wl; split; [reflexivity | apply Sd]).
    pose proof (s_right Sd (n := 0) (conj (le_n 0) Lc) HR) as G.
    destruct (right_step (rb := rb) iter_perm (n := 0) (e := Rr) (t := t) (W := W) C1 O1 G Ht HW) as (X & EX & (k & wk & Ck & Ok1 & SX & VX)).
    cbn [Nat.add skipn] in Ck, Ok1, VX.
    pose proof (chain_det_l Ck (s_chain Sd)) as ->.
    assert (wk = wl) as ->. { apply (ochain_fun_l (ws := ws) (D := phys ts) (b := wr)); [intros N; rewrite N in HW; discriminate | exact Ok1 | apply Sd]. }
    destruct (s_left Sd (le_n 0) HL) as (k1 & wk1 & Cl & Ol & SL & VL). cbn [firstn] in VL. cbn in Cl, Ol. subst k1 wk1.
    destruct (ncon_scalar3 iter_perm SX SL) as (v & Ev & _ & V). exists Rr, t, W, X, L, v. unfold get. rewrite Ht, HW. repeat split; auto.
    rewrite V. unfold matrix_element. rewrite Slb, lsum_idxs3. apply nsum_ext. intros a Ha. apply nsum_ext. intros b Hb. apply nsum_ext. intros b' Hb'.
    assert (valid [a; b; b'] [wl; l; l]) as Va by (apply mk_valid3; assumption).
    rewrite (VL _ Va), (VX _ Va), (left_env_nil Slb Va). unfold right_env. rewrite <- lsum_mul_r. apply lsum_ext. intros y _. unfold triple. cbn [nth]. ring.
  Qed.
  Lemma energy_ok c d d' e : anchored d -> sound c d -> compute_energy d = Ok (d', e) ->
    step_ok wl wr l r lb rb c d 0 d' /\ ready 0 d' /\ e = matrix_element lb rb (phys (tens (dmps d'))) (dmpo d') (amp (tens (dmps d'))) (amp (tens (dmps d'))).
  Proof.
    intros An Sd H. unfold Dmrg.compute_energy in H. destruct (restart d) as [d1| |] eqn:F1; try discriminate. cbn [rbind] in H.
    destruct (restart_ok iter_perm Hqr Hsvd Sd F1) as [K1 R1]. specialize (R1 (proj1 An)). pose proof K1 as (S1 & _ & A1 & _).
    destruct (energy_value (A1 An) S1 R1) as (Rr & t & W & X & L & v & E1 & E2 & E3 & E4 & E5 & E6 & V).
    rewrite E1, E2, E3 in H. cbn [rbind] in H. rewrite E4, E5 in H. cbn [rbind] in H. rewrite E6 in H. cbn [rbind] in H. injection H as <- <-. auto.
  Qed.
  Lemma energy_total c d : total qrf -> anchored d -> sound c d -> exists f, compute_energy d = Ok f.
  Proof.
    intros T1 An Sd. unfold Dmrg.compute_energy. destruct (restart_total nkeep err_ge1 nrm rdiv iter_perm Hqr Hsvd T1 An Sd) as (d1 & F1). rewrite F1. cbn [rbind].
    destruct (restart_ok iter_perm Hqr Hsvd Sd F1) as [K1 R1]. specialize (R1 (proj1 An)). pose proof K1 as (S1 & _ & A1 & _).
    destruct (energy_value (A1 An) S1 R1) as (Rr & t & W & X & L & v & E1 & E2 & E3 & E4 & E5 & E6 & V).
    rewrite E1, E2, E3. cbn [rbind]. rewrite E4, E5. cbn [rbind]. rewrite E6. cbn [rbind]. eauto.
  Qed.
End Local.
