(** * Properties C34 and C35: moving the orthogonality centre of a matrix product state, and gates *)
From Coq Require Import List ZArith Lia Permutation QArith Qcanon.
From Verif Require Import Prelude Res Algebra Tensor TensorFacts ListFacts Ncon BlockSparse Backends DecompFacts
  Mps MpsSpec MpsNcon MpsSplit MpsState MpsPosition MpsCanon MpsGate MpsExamples.
Import ListNotations.
Set Implicit Arguments.
Unset Strict Implicit.
Local Open Scope nat_scope.
Local Open Scope csr_scope.

Section Mps.
  Context {R : cjr} {E : Type}.
  Variable iter : list Z -> list Z.
  Variable qrf : tensor R -> res (tensor R * tensor R).
  Variable svdf : tensor R -> res (tensor R * list R * tensor R).
  Variable nkeep : bool -> option nat -> option E -> list R -> nat.
  Variable err_ge1 err_zero : E -> bool.
  Variable nrm : tensor R -> R.
  Variable rdiv : R -> R -> R.
  Hypothesis iter_perm : forall l, Permutation (iter l) l.
  Hypothesis Hqr : qr_ok qrf.
  Hypothesis Hsvd : svd_ok svdf.
  Notation position := (position iter qrf svdf nkeep err_ge1 nrm rdiv).

  (** [position]: the bonds match, the physical dimensions are kept, the state is canonical around the new
      centre (also when the bonds are truncated), the centre tensor is divided by its norm, which is
      returned; and if nothing but zero singular values is discarded, the old state is the product of the
      norms divided out times the new one. *)
  Theorem C34_position normalize D err l r (m m' : mps R) site z c :
    chain l (tens m) r -> centre m = Some c -> position normalize D err m site = Ok (m', z) ->
    exists s, site = Z.of_nat s /\ s < length (tens m) /\ centre m' = Some s /\
    chain l (tens m') r /\ phys (tens m') = phys (tens m) /\
    (canonical (tens m) c -> canonical (tens m') s) /\
    (exists zs, length zs = Nat.max 1 (Nat.max c s - Nat.min c s) /\ last zs r0 = z /\
       ((D = None /\ err = None) \/ (forall t p u s v tw, svd_at svdf nkeep true D err t p = Ok (u, s, v, tw) -> forall x, In x tw -> x = r0) ->
        (normalize = true -> nonzero l r (tens m) /\ norm_ok nrm /\ div_ok rdiv) ->
        scaled l r (lprod zs (fun y => if normalize then y else r1)) (tens m) (tens m'))) /\
    (exists w, nth_error (tens m') s = Some (if normalize then tdiv rdiv w z else w) /\ z = nrm w).
  Proof.
    intros C Hc H. destruct (position_spec iter_perm Hqr Hsvd C Hc H) as (s & H1 & H2 & H3 & H4 & H5 & H6 & H7 & (zs & Z1 & Z2 & Z3) & H8).
    exists s. do 5 (split; [assumption|]). split; [|split; [|exact H8]].
    - rewrite !canonical_split. intros [A B]. split.
      + apply H6. exact (left_upto_mono (Nat.le_min_l c s) A).
      + apply H7. exact (right_from_mono (Nat.le_max_l c s) B).
    - exists zs. split; [exact Z1|]. split; [exact Z2|]. intros X N. exact (Z3 (conj X N)).
  Qed.

  (** the new centre needs no isometry between the old and the new centre: a tensor that is passed becomes one *)
  Theorem C34_sweep normalize D err l r (m m' : mps R) site z c :
    chain l (tens m) r -> centre m = Some c -> position normalize D err m site = Ok (m', z) ->
    (forall i t, nth_error (tens m) i = Some t -> (Z.of_nat i < Z.min (Z.of_nat c) site -> left_iso t)%Z /\ (Z.max (Z.of_nat c) site < Z.of_nat i -> right_iso t)%Z) ->
    canonical (tens m') (Z.to_nat site).
  Proof.
    intros C Hc H A. destruct (position_spec iter_perm Hqr Hsvd C Hc H) as (s & -> & _ & _ & _ & _ & H6 & H7 & _).
    rewrite Nat2Z.id. apply canonical_split. split; [apply H6 | apply H7]; intros i t Ht Hi; apply (A i t Ht); lia.
  Qed.

  Theorem C34_position_total normalize D err l r (m : mps R) c s :
    total qrf -> (D = None /\ err = None) \/ total svdf ->
    chain l (tens m) r -> centre m = Some c -> c < length (tens m) -> s < length (tens m) ->
    match err with Some e => err_ge1 e = false | None => True end ->
    exists f, position normalize D err m (Z.of_nat s) = Ok f.
  Proof. intros T1 T2. exact (@position_total R E iter qrf svdf nkeep err_ge1 nrm rdiv iter_perm Hqr Hsvd normalize D err T1 T2 l r m c s). Qed.

  (** [FiniteMPS(ts, center_position)]: canonical around the centre, a multiple of the state given, and the
      centre tensor is divided by its norm *)
  Theorem C34_init l r (ts : list (tensor R)) cp m :
    chain l ts r -> init iter qrf svdf nkeep err_ge1 nrm rdiv ts cp true = Ok m ->
    let c := match cp with Some c => Z.to_nat c | None => 0 end in
    centre m = Some c /\ c < length ts /\ chain l (tens m) r /\ phys (tens m) = phys ts /\ canonical (tens m) c /\
    (nonzero l r ts -> norm_ok nrm -> div_ok rdiv -> exists k, scaled l r k ts (tens m)) /\
    (exists w, nth_error (tens m) c = Some (tdiv rdiv w (nrm w))).
  Proof.
    intros C H. destruct (init_spec iter_perm Hqr Hsvd C H) as ((H1 & H2 & H3 & H4 & H5 & H6) & W). cbv zeta.
    do 5 (split; [assumption|]). split; [|exact W]. intros N1 N2 N3. destruct H6 as (k & K & _); [auto|]. exists k. exact K.
  Qed.

  Theorem C34_init_total l r (ts : list (tensor R)) cp :
    total qrf -> chain l ts r -> ts <> [] -> match cp with Some c => (0 <= c < Z.of_nat (length ts))%Z | None => True end ->
    exists m, init iter qrf svdf nkeep err_ge1 nrm rdiv ts cp true = Ok m.
  Proof. exact (@init_total R E iter qrf svdf nkeep err_ge1 nrm rdiv iter_perm Hqr Hsvd l r ts cp). Qed.

  (** [canonicalize] needs no isometry at all *)
  Theorem C34_canonicalize normalize l r (m m' : mps R) z :
    chain l (tens m) r -> canonicalize iter qrf svdf nkeep err_ge1 nrm rdiv normalize m = Ok (m', z) ->
    let c := match centre m with Some c => c | None => 0 end in
    centre m' = Some c /\ c < length (tens m) /\ chain l (tens m') r /\ phys (tens m') = phys (tens m) /\ canonical (tens m') c /\
    ((normalize = true -> nonzero l r (tens m) /\ norm_ok nrm /\ div_ok rdiv) ->
     exists k, scaled l r k (tens m) (tens m') /\ (normalize = false -> k = r1)) /\
    (exists w, nth_error (tens m') c = Some (if normalize then tdiv rdiv w z else w) /\ z = nrm w).
  Proof.
    intros C H. destruct (canonicalize_spec iter_perm Hqr Hsvd C H) as ((H1 & H2 & H3 & H4 & H5 & H6) & W). cbv zeta.
    do 5 (split; [assumption|]). split; [exact H6 | exact W].
  Qed.

  (** [apply_one_site_gate]: the call succeeds and multiplies the state by the gate. *)
  Theorem C35_one_site l r (m : mps R) (gate : tensor R) s d d' :
    chain l (tens m) r -> nth_error (phys (tens m)) s = Some d -> shape gate = [d'; d] ->
    exists m', apply_one_site_gate iter gate (Z.of_nat s) m = Ok m' /\ centre m' = centre m /\
      chain l (tens m') r /\ phys (tens m') = firstn s (phys (tens m)) ++ d' :: skipn (s + 1) (phys (tens m)) /\
      forall a b g1 u g3, a < l -> b < r -> length g1 = s -> u < d' ->
        amp (tens m') a (g1 ++ u :: g3) b = nsum d (fun v => elt gate [u; v] *! amp (tens m) a (g1 ++ v :: g3) b).
  Proof.
    intros C Hd Sg. destruct (one_site iter_perm C Hd Sg) as (p & t & q & w & H1 & H2 & H3 & H4 & H5 & _ & H6).
    eexists. split; [exact H3|]. split; [reflexivity|]. split; [exact H4|]. split.
    - cbn [tens]. rewrite H5, H1. unfold phys. rewrite map_app. cbn [map].
      assert (length (map (fun x : tensor R => nth 1 (shape x) 0) p) = s) as L by (rewrite map_length; exact H2).
      rewrite <- L at 1. rewrite firstn_app, Nat.sub_diag, firstn_all, app_nil_r. f_equal. f_equal.
      rewrite skipn_app, skipn_all2 by lia. replace (s + 1 - _) with 1 by lia. reflexivity.
    - intros a b g1 u g3 Ha Hb L Hu. apply H6; [assumption..| congruence | assumption].
  Qed.

  (** A canonical state stays canonical when the gate acts on the centre or is an isometry. *)
  Theorem C35_one_site_canonical l r (m m' : mps R) (gate : tensor R) s d d' c :
    chain l (tens m) r -> nth_error (phys (tens m)) s = Some d -> shape gate = [d'; d] ->
    apply_one_site_gate iter gate (Z.of_nat s) m = Ok m' -> canonical (tens m) c ->
    s = c \/ (forall v v', v < d -> v' < d -> nsum d' (fun u => elt gate [u; v] *! cj (elt gate [u; v'])) = if v =? v' then r1 else r0) ->
    canonical (tens m') c.
  Proof.
    intros C Hd Sg H A I. destruct (one_site iter_perm C Hd Sg) as (p & t & q & w & H1 & H2 & H3 & _ & _ & (x & y & S1 & S2 & W) & _).
    assert (m' = MPS (p ++ w :: q) (centre m)) as -> by congruence. cbn [tens]. rewrite H1 in A.
    apply (@canonical_replace R p q t w c); [| |exact A]; intros Lt; (destruct I as [->|I]; [lia|]).
    - exact (gate_left_iso I S1 S2 W).
    - exact (gate_right_iso I S1 S2 W).
  Qed.

  (** [apply_two_site_gate]: the state is multiplied by the gate if only zero singular values are
      discarded, in particular without truncation arguments. *)
  Theorem C35_two_site l r (m m' : mps R) (gate : tensor R) s1 s2 d1 d2 e1 e2 msv mte cp rel tw :
    chain l (tens m) r -> nth_error (phys (tens m)) s1 = Some d1 -> nth_error (phys (tens m)) (s1 + 1) = Some d2 -> shape gate = [e1; e2; d1; d2] ->
    apply_two_site_gate iter qrf svdf nkeep err_zero gate (Z.of_nat s1) s2 msv mte cp rel m = Ok (m', tw) ->
    s2 = (Z.of_nat s1 + 1)%Z /\ chain l (tens m') r /\
    phys (tens m') = firstn s1 (phys (tens m)) ++ e1 :: e2 :: skipn (s1 + 2) (phys (tens m)) /\
    (msv = None -> mte = None -> tw = []) /\
    ((forall x, In x tw -> x = r0) ->
     forall a b g1 u1 u2 g3, a < l -> b < r -> length g1 = s1 -> u1 < e1 -> u2 < e2 ->
      amp (tens m') a (g1 ++ u1 :: u2 :: g3) b =
      nsum d1 (fun v1 => nsum d2 (fun v2 => elt gate [u1; u2; v1; v2] *! amp (tens m) a (g1 ++ v1 :: v2 :: g3) b))).
  Proof.
    intros C H1 H2 Sg H.
    destruct (two_site iter_perm Hqr Hsvd C H1 H2 Sg H) as (p & t1 & t2 & q & lt & rt & E2 & Ecp & Eo & Lp & En & C' & P' & (_ & _ & _ & X) & G).
    split; [exact E2|]. split; [exact C'|]. split; [|split].
    - rewrite P', Eo. unfold phys. rewrite map_app. cbn [map].
      assert (length (map (fun x : tensor R => nth 1 (shape x) 0) p) = s1) as L by (rewrite map_length; exact Lp).
      rewrite <- L at 1. rewrite firstn_app, Nat.sub_diag, firstn_all, app_nil_r. f_equal. f_equal. f_equal.
      rewrite skipn_app, skipn_all2 by lia. replace (s1 + 2 - _) with 2 by lia. reflexivity.
    - intros -> ->. apply X. reflexivity.
    - intros Z a b g1 u1 u2 g3 Ha Hb L Hu1 Hu2. apply (G Z); [assumption..| congruence | rewrite Sg; assumption | rewrite Sg; assumption].
  Qed.

  (** With a truncation argument (the SVD branch) a state that is canonical around one of the two sites is
      canonical around the centre that is recorded, whatever is discarded.  Without one (the QR branch)
      it is canonical around the other of the two sites than the one recorded: see R_Mps.v. *)
  Theorem C35_two_site_canonical l r (m m' : mps R) (gate : tensor R) s1 s2 d1 d2 e1 e2 msv mte cp rel tw c :
    chain l (tens m) r -> nth_error (phys (tens m)) s1 = Some d1 -> nth_error (phys (tens m)) (s1 + 1) = Some d2 -> shape gate = [e1; e2; d1; d2] ->
    apply_two_site_gate iter qrf svdf nkeep err_zero gate (Z.of_nat s1) s2 msv mte cp rel m = Ok (m', tw) ->
    centre m = Some c -> (c = s1 \/ c = s1 + 1) -> canonical (tens m) c ->
    let asked := match cp with Some x => Z.to_nat x | None => s1 end in
    (asked = s1 \/ asked = s1 + 1) /\ centre m' = Some asked /\
    (msv <> None \/ mte <> None -> canonical (tens m') asked) /\
    (msv = None -> mte = None -> canonical (tens m') (if asked =? s1 then s1 + 1 else s1)).
  Proof.
    intros C H1 H2 Sg H Hc Hs A. cbv zeta.
    destruct (two_site iter_perm Hqr Hsvd C H1 H2 Sg H) as (p & t1 & t2 & q & lt & rt & E2 & Ecp & Eo & Lp & En & _ & _ & (Ec & I & _) & _).
    rewrite Hc in Ec. assert ((c =? s1) || (c =? s1 + 1) = true) as E1. { destruct Hs as [-> | ->]; rewrite Nat.eqb_refl, ?Bool.orb_true_r; reflexivity. }
    rewrite E1 in Ec. rewrite Eo in A. rewrite <- Lp in Hs. cbv zeta in I.
    assert ((match cp with Some x => Z.to_nat x | None => s1 end = s1 + 1 /\ match cp with Some c => (c =? s2)%Z | None => false end = true) \/
            (match cp with Some x => Z.to_nat x | None => s1 end = s1 /\ match cp with Some c => (c =? s2)%Z | None => false end = false)) as K.
    { destruct Ecp as [->|[->| ->]].
      - right. split; reflexivity.
      - right. split; [lia | apply Z.eqb_neq; lia].
      - left. split; [lia | apply Z.eqb_eq; lia]. }
    destruct K as [[-> K]|[-> K]]; rewrite K in *.
    - split; [auto|]. split; [exact Ec|]. rewrite (proj2 (Nat.eqb_neq (s1 + 1) s1)) by lia. rewrite En. split.
      + intros N. apply (canonical_pair A Hs). left. rewrite Lp. split; [reflexivity|].
        destruct msv, mte; cbn in I; try exact I. destruct N as [N|N]; contradiction N; reflexivity.
      + intros -> ->. apply (canonical_pair A Hs). right. split; [auto | exact I].
    - split; [auto|]. split; [exact Ec|]. rewrite Nat.eqb_refl, En. split.
      + intros N. apply (canonical_pair A Hs). right. split; [auto|].
        destruct msv, mte; cbn in I; try exact I. destruct N as [N|N]; contradiction N; reflexivity.
      + intros -> ->. apply (canonical_pair A Hs). left. rewrite Lp. split; [reflexivity | exact I].
  Qed.

  Theorem C35_two_site_elsewhere l r (m m' : mps R) (gate : tensor R) s1 s2 d1 d2 e1 e2 msv mte cp rel tw :
    chain l (tens m) r -> nth_error (phys (tens m)) s1 = Some d1 -> nth_error (phys (tens m)) (s1 + 1) = Some d2 -> shape gate = [e1; e2; d1; d2] ->
    apply_two_site_gate iter qrf svdf nkeep err_zero gate (Z.of_nat s1) s2 msv mte cp rel m = Ok (m', tw) ->
    centre m <> Some s1 -> centre m <> Some (s1 + 1) -> centre m' = None.
  Proof.
    intros C H1 H2 Sg H N1 N2.
    destruct (two_site iter_perm Hqr Hsvd C H1 H2 Sg H) as (p & t1 & t2 & q & lt & rt & _ & _ & _ & _ & _ & _ & _ & (Ec & _) & _).
    rewrite Ec. destruct (centre m) as [c|]; [|reflexivity].
    rewrite (proj2 (Nat.eqb_neq c s1)), (proj2 (Nat.eqb_neq c (s1 + 1))) by congruence. reflexivity.
  Qed.

  Theorem C35_two_site_total l r (m : mps R) (gate : tensor R) s1 d1 d2 e1 e2 msv mte cp rel :
    chain l (tens m) r -> nth_error (phys (tens m)) s1 = Some d1 -> nth_error (phys (tens m)) (s1 + 1) = Some d2 -> shape gate = [e1; e2; d1; d2] ->
    cp = None \/ cp = Some (Z.of_nat s1) \/ cp = Some (Z.of_nat s1 + 1)%Z -> total qrf ->
    (msv = None /\ mte = None) \/ (total svdf /\ (centre m = Some s1 \/ centre m = Some (s1 + 1))) ->
    exists f, apply_two_site_gate iter qrf svdf nkeep err_zero gate (Z.of_nat s1) (Z.of_nat s1 + 1)%Z msv mte cp rel m = Ok f.
  Proof. exact (@two_site_total R E iter qrf svdf nkeep err_zero iter_perm Hsvd l r m gate s1 d1 d2 e1 e2 msv mte cp rel). Qed.
End Mps.
Print Assumptions C34_position.
Print Assumptions C34_sweep.
Print Assumptions C34_position_total.
Print Assumptions C34_init.
Print Assumptions C34_init_total.
Print Assumptions C34_canonicalize.
Print Assumptions C35_one_site.
Print Assumptions C35_one_site_canonical.
Print Assumptions C35_two_site.
Print Assumptions C35_two_site_canonical.
Print Assumptions C35_two_site_elsewhere.
Print Assumptions C35_two_site_total.

(** ** examples: rational states, factorisations that meet the contracts where they do not raise *)
Definition idz (l : list Z) : list Z := l.
Lemma idz_perm l : Permutation (idz l) l. Proof. apply Permutation_refl. Qed.
Notation posx := (position idz qrx svdx keepx err1 nrmx divx).
(** bonds 1, 2, 4; the centre is 0 and the second tensor is right isometric *)
Definition xa : tensor Q_cjr := qt [1; 2; 2] (map qn [1; 2; 3; 4]%Z).
Definition xb : tensor Q_cjr := qt [2; 2; 4] (map qn [1; 0; 0; 0; 0; 0; 0; 0; 0; 0; 0; 0; 0; 1; 0; 0]%Z).
Definition xm : mps Q_cjr := MPS [xa; xb] (Some 0).
Lemma xchain : chain 1 (tens xm) 4.
Proof. exists 2, 2. split; [reflexivity|]. exists 2, 4. split; reflexivity. Qed.
Lemma xcanon : canonical (tens xm) 0.
Proof.
  intros [|[|i]] t H; cbn in H; try (injection H as <-); try (destruct i; discriminate H); split; intros L; try lia.
  intros a a' Ha Ha'. cbn in Ha, Ha'. assert (a = 0 \/ a = 1) as [-> | ->] by lia; assert (a' = 0 \/ a' = 1) as [-> | ->] by lia; apply qeqb_eq; vm_compute; reflexivity.
Qed.
Lemma xnonzero : nonzero 1 4 (tens xm).
Proof. exists 0, [0; 0], 0. split; [lia|]. split; [lia|]. split; [repeat constructor|]. intros H. apply (f_equal (fun x => Qeq_bool (this x) 0)) in H. vm_compute in H. discriminate. Qed.
Definition okm (x : res (mps Q_cjr * Q_cjr)) : option (list Q * option nat * Q) :=
  match x with Ok (m, z) => Some (amps (tens m) 1 4, centre m, this z) | _ => None end.
(** the hypotheses of C34_position hold; the amplitudes are halved by the norm two *)
Example C34_position_example :
  qr_ok qrx /\ svd_ok svdx /\ norm_ok nrmx /\ div_ok divx /\ chain 1 (tens xm) 4 /\ canonical (tens xm) 0 /\ nonzero 1 4 (tens xm) /\
  okm (posx true None None xm 1%Z) = Some (amps [qt [1; 2; 2] (map (fun n => qd n 2) [1; 2; 3; 4]%Z); xb] 1 4, Some 1, 2%Q) /\
  okm (posx true None None xm 2%Z) = None.
Proof.
  split; [exact qrx_ok|]. split; [exact svdx_ok|]. split; [exact nrmx_ok|]. split; [exact divx_ok|].
  split; [exact xchain|]. split; [exact xcanon|]. split; [exact xnonzero|]. split; vm_compute; reflexivity.
Qed.
(** canonicalising from a state without centre: to the left over isometries *)
Definition ya : tensor Q_cjr := qt [1; 2; 4] (map qn [1; 2; 0; 5; 3; 4; 1; 1]%Z).
Definition yb : tensor Q_cjr := qt [4; 2; 1] (map qn [1; 0; 0; 1; 2; 0; 0; 3]%Z).
Definition ym : mps Q_cjr := MPS [ya; yb] None.
Example C34_canonicalize_example :
  chain 1 (tens ym) 1 /\
  match canonicalize idz qrx svdx keepx err1 nrmx divx false ym with
  | Ok (m, z) => centre m = Some 0 /\ map (@shape Q_cjr) (tens m) = [[1; 2; 2]; [2; 2; 1]] /\ amps (tens m) 1 1 = amps (tens ym) 1 1 /\ this z = 2%Q
  | _ => False
  end.
Proof. split; [exists 2, 4; split; [reflexivity|]; exists 2, 1; split; reflexivity|]. vm_compute. repeat split; reflexivity. Qed.
Example C34_init_example :
  match init idz qrx svdx keepx err1 nrmx divx [ya; yb] (Some 1%Z) true with
  | Ok m => centre m = Some 1 /\ map (fun x => Qred (x * 4)) (amps (tens m) 1 1) = amps (tens ym) 1 1
  | _ => False
  end.
Proof. vm_compute. repeat split; reflexivity. Qed.

(** a gate that is not unitary, at the centre *)
Definition g1 : tensor Q_cjr := qt [2; 2] (map qn [1; 1; 0; 2]%Z).
Example C35_one_site_example : nth_error (phys (tens xm)) 0 = Some 2 /\
  match apply_one_site_gate idz g1 0%Z xm with
  | Ok m => amps (tens m) 1 4 = amps [qt [1; 2; 2] (map qn [4; 6; 6; 8]%Z); xb] 1 4 /\ centre m = Some 0
  | _ => False
  end.
Proof. vm_compute. repeat split; reflexivity. Qed.
(** a rotation away from the centre *)
Definition gr : tensor Q_cjr := qt [2; 2] [qd 3 5; qd (-4) 5; qd 4 5; qd 3 5].
Example C35_one_site_canonical_example : nth_error (phys (tens xm)) 1 = Some 2 /\
  (forall v v', v < 2 -> v' < 2 -> nsum 2 (fun u => elt gr [u; v] *! cj (elt gr [u; v'])) = if v =? v' then r1 else r0) /\
  exists m, apply_one_site_gate idz gr 1%Z xm = Ok m /\ rowsb (as_matrix (nth 1 (tens m) xa) 1) 2 8 = true.
Proof.
  split; [reflexivity|]. split.
  - intros v v' Hv Hv'. assert (v = 0 \/ v = 1) as [-> | ->] by lia; assert (v' = 0 \/ v' = 1) as [-> | ->] by lia; apply qeqb_eq; vm_compute; reflexivity.
  - eexists. split; [reflexivity|]. vm_compute. reflexivity.
Qed.
(** the exchange of the two sites *)
Definition gswap : tensor Q_cjr := Tensor [2; 2; 2; 2] (fun ix => if (nth 0 ix 0 =? nth 3 ix 0) && (nth 1 ix 0 =? nth 2 ix 0) then r1 else r0).
Notation twox := (apply_two_site_gate idz qrx svdx keepx err0).
Example C35_two_site_example :
  match twox gswap 0%Z 1%Z None None None false xm with
  | Ok (m, tw) => tw = [] /\ centre m = Some 0 /\ phys (tens m) = [2; 2] /\
      (forall b, In b (seq 0 4) -> this (amp (tens m) 0 [0; 1] b) = this (amp (tens xm) 0 [1; 0] b)) /\ this (amp (tens m) 0 [0; 1] 0) = 3%Q
  | _ => False
  end.
Proof. vm_compute. repeat split; try reflexivity. intros b [<-|[<-|[<-|[<-|[]]]]]; reflexivity. Qed.
(** with a truncation argument: the two-site tensor has orthonormal rows *)
Definition za : tensor Q_cjr := qt [1; 2; 2] (map qn [1; 0; 0; 1]%Z).
Definition zm : mps Q_cjr := MPS [za; xb] (Some 0).
Example C35_two_site_truncated_example :
  match twox gswap 0%Z 1%Z (Some 1) None (Some 1%Z) false zm with
  | Ok (m, tw) => map this tw = [1%Q] /\ centre m = Some 1 /\ map (@shape Q_cjr) (tens m) = [[1; 2; 1]; [1; 2; 4]]
  | _ => False
  end.
Proof. vm_compute. repeat split; reflexivity. Qed.
