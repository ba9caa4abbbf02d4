(** * MpsInfRoots: the square roots of the fixed points and their inverses *)
From Coq Require Import List ZArith Lia Permutation.
From Verif Require Import Prelude Res Algebra Tensor TensorFacts ListFacts BlockSparse Backends
  Mps MpsSpec MpsNcon MpsState MpsPosition MpsInf MpsInfSpec MpsInfNcon MpsInfAlg.
Import ListNotations.
Set Implicit Arguments.
Unset Strict Implicit.
Local Open Scope nat_scope.
Local Open Scope csr_scope.

Section Roots.
  Context {R : cjr}.
  Add Ring Rring : (rsr R).
  Notation tensor := (Tensor.tensor R).
  Variable iter : list Z -> list Z.
  Hypothesis iter_perm : forall l, Permutation (iter l) l.
  Variable nrm : tensor -> R.
  Variable rdiv : R -> R -> R.
  Variable eigh : tensor -> res (list R * tensor).
  Variable sqrtf : R -> R.
  Variable le : R -> R -> bool.
  Variable cutoff : R.
  Hypothesis Hdiv : div_ok rdiv.
  Hypothesis H2 : r1 +! r1 <> r0 :> R.
  Hypothesis Hn : norm_sq nrm.
  Hypothesis Heigh : eigh_ok eigh.
  Hypothesis Hsqrt : sqrt_ok rdiv sqrtf le cutoff.

  Lemma cancel (c x y : R) : c <> r0 -> c *! x = c *! y -> x = y.
  Proof.
    intros Hc E. pose proof (@Hdiv r1 c Hc) as I. transitivity (rdiv r1 c *! (c *! x)); [|rewrite E].
    - transitivity ((c *! rdiv r1 c) *! x); [rewrite I; ring | ring].
    - transitivity ((c *! rdiv r1 c) *! y); [ring | rewrite I; ring].
  Qed.
  Lemma mul_nz (c d : R) : c <> r0 -> d <> r0 -> c *! d <> r0.
  Proof. intros Hc Hd E. apply Hd. apply (@cancel c); [exact Hc|]. rewrite E. ring. Qed.
  Lemma div_add_half a : rdiv (a +! a) (r1 +! r1) = a.
  Proof. apply (@cancel (r1 +! r1)); [exact H2|]. rewrite (@Hdiv _ _ H2). ring. Qed.

  Notation pos := (positive nrm rdiv eigh le cutoff).
  Lemma herm_elt D (x : tensor) : shape x = [D; D] -> pos D (fun i j => elt x [i; j]) ->
    forall i j, i < D -> j < D -> elt (herm rdiv x) [i; j] = rdiv (elt x [i; j]) (nsum D (fun i => elt x [i; i])).
  Proof.
    intros Sx (Z0 & Hh & _) i j Hi Hj. unfold herm. cbn [elt]. unfold trace. rewrite Sx. cbn [nth]. rewrite Nat.min_id.
    set (z := nsum D (fun i => elt x [i; i])) in *. change (elt (tdiv rdiv x z) [i; j]) with (rdiv (elt x [i; j]) z).
    change (elt (tdiv rdiv x z) [j; i]) with (rdiv (elt x [j; i]) z). rewrite <- (Hh i j Hi Hj). apply div_add_half.
  Qed.

  Lemma half D (x u : tensor) w : shape x = [D; D] -> pos D (fun i j => elt x [i; j]) -> eigh (herm rdiv x) = Ok (w, u) ->
    shape u = [D; D] /\ length w = D /\
    exists (d f : nat -> R) kap, kap <> r0 /\
      (forall c, c < D -> nth c (map sqrtf (fst (masked nrm rdiv le cutoff w))) r0 = d c /\
                          nth c (map sqrtf (snd (masked nrm rdiv le cutoff w))) r0 = f c /\
                          cj (d c) = d c /\ cj (f c) = f c /\ d c *! f c = r1) /\
      (forall i j, i < D -> j < D -> nsum D (fun c => elt u [i; c] *! cj (elt u [j; c])) = if i =? j then r1 else r0) /\
      (forall i j, i < D -> j < D -> nsum D (fun c => cj (elt u [c; i]) *! elt u [c; j]) = if i =? j then r1 else r0) /\
      (forall i j, i < D -> j < D -> elt x [i; j] = kap *! nsum D (fun c => elt u [i; c] *! (d c *! d c) *! cj (elt u [j; c]))).
  Proof.
    intros Sx Px Eg. pose proof (herm_elt Sx Px) as HE. destruct Px as (Z0 & Hh & Hc). set (z := nsum D (fun i => elt x [i; i])) in *.
    assert (shape (herm rdiv x) = [D; D]) as Sh by exact Sx.
    destruct (@Heigh (herm rdiv x) w u D Sh) as (Lw & Su & Rw & U1 & U2 & Em); [|exact Eg|].
    { intros i j Hi Hj. rewrite !HE by assumption. apply Hh; assumption. }
    assert (forall e, In e w -> le (rdiv e (nrm (vec w))) cutoff = false) as Big.
    { apply (@Hc (herm rdiv x) w u (vec w)); [exact Sh | exact HE | exact Eg | reflexivity|]. intros i Hi. reflexivity. }
    set (nw := nrm (vec w)) in *.
    assert (nw <> r0) as Nw.
    { intros E. apply Z0. destruct Hn as [Hd _]. unfold z.
      assert (forall c, c < D -> nth c w r0 = r0) as W0.
      { intros c Hcd. apply (Hd (vec w) E [c]). cbn [vec shape]. rewrite Lw. apply valid1. exact Hcd. }
      apply nsum_zero. intros i Hi. rewrite <- (@Hdiv (elt x [i; i]) z Z0), <- (HE i i Hi Hi), (Em i i Hi Hi).
      rewrite nsum_zero; [ring|]. intros c Hcd. rewrite (W0 c Hcd). ring. }
    set (g := fun c => rdiv (nth c w r0) nw).
    assert (forall c, c < D -> In (nth c w r0) w) as In_w by (intros c Hcd; apply nth_In; lia).
    assert (forall c, c < D -> cj (g c) = g c) as Rg.
    { intros c Hcd. apply (cancel Nw). transitivity (cj (nw *! g c)).
      - rewrite cj_mul. destruct Hn as [_ Hd]. unfold nw. rewrite (proj1 (Hd (vec w))). reflexivity.
      - unfold g. rewrite (@Hdiv _ _ Nw). apply Rw. apply In_w. exact Hcd. }
    assert (forall c, c < D -> le (g c) cutoff = false) as Bg by (intros c Hcd; apply Big, In_w, Hcd).
    split; [exact Su|]. split; [exact Lw|]. exists (fun c => sqrtf (g c)), (fun c => sqrtf (rdiv r1 (g c))), (z *! nw).
    split; [apply mul_nz; assumption|]. split; [|split; [exact U1|split; [exact U2|]]].
    - intros c Hcd. destruct (Hsqrt (Rg c Hcd) (Bg c Hcd)) as (_ & S2 & S3 & S4).
      unfold masked. fold nw. cbn [fst snd].
      assert (forall F : R -> R, nth c (map sqrtf (map F (map (fun x0 => rdiv x0 nw) w))) r0 = sqrtf (F (g c))) as N.
      { intros F. rewrite !map_map. rewrite (@nth_indep R _ c r0 (sqrtf (F (rdiv r0 nw)))) by (rewrite map_length; lia).
        rewrite (map_nth (fun x0 => sqrtf (F (rdiv x0 nw)))). reflexivity. }
      rewrite (N (fun y => if le y cutoff then r0 else y)), (N (fun y => if le y cutoff then r0 else rdiv r1 y)).
      rewrite (Bg c Hcd). auto.
    - intros i j Hi Hj. rewrite <- (@Hdiv (elt x [i; j]) z Z0), <- (HE i j Hi Hj), (Em i j Hi Hj).
      transitivity (z *! (nw *! nsum D (fun c => elt u [i; c] *! (sqrtf (g c) *! sqrtf (g c)) *! cj (elt u [j; c])))); [|ring].
      f_equal. rewrite <- nsum_mul_l. apply nsum_ext. intros c Hcd. destruct (Hsqrt (Rg c Hcd) (Bg c Hcd)) as (S1 & _).
      rewrite S1. unfold g. rewrite <- (@Hdiv (nth c w r0) nw Nw) at 1. ring.
  Qed.

  Lemma diag_elt (s : list R) i j : elt (diagflat s) [i; j] = if i =? j then nth i s r0 else r0.
  Proof. reflexivity. Qed.
  Lemma nsum_dg_r n j (f h : nat -> R) : j < n -> nsum n (fun l => f l *! (if l =? j then h l else r0)) = f j *! h j.
  Proof.
    intros Hj. rewrite (@nsum_single R n _ j); [rewrite Nat.eqb_refl; reflexivity | exact Hj|].
    intros i Hi Ne. rewrite (proj2 (Nat.eqb_neq i j)) by exact Ne. ring.
  Qed.
  Lemma nsum_dg_l n j (f h : nat -> R) : j < n -> nsum n (fun l => (if j =? l then h j else r0) *! f l) = h j *! f j.
  Proof.
    intros Hj. rewrite (@nsum_single R n _ j); [rewrite Nat.eqb_refl; reflexivity | exact Hj|].
    intros i Hi Ne. rewrite (proj2 (Nat.eqb_neq j i)) by auto. ring.
  Qed.

  Definition mxt (t : tensor) (i j : nat) : R := elt t [i; j].
  Notation roots_left := (roots_left iter nrm rdiv eigh sqrtf le cutoff).
  Notation roots_right := (roots_right iter nrm rdiv eigh sqrtf le cutoff).

  Lemma masked_length w D : length w = D -> length (map sqrtf (fst (masked nrm rdiv le cutoff w))) = D /\ length (map sqrtf (snd (masked nrm rdiv le cutoff w))) = D.
  Proof. intros H. unfold masked. cbn [fst snd]. rewrite !map_length. auto. Qed.

  Lemma roots_left_spec D (x sl il : tensor) : shape x = [D; D] -> pos D (fun i j => elt x [i; j]) -> roots_left x = Ok (sl, il) ->
    shape sl = [D; D] /\ shape il = [D; D] /\ eqm D D (mm D (mxt il) (mxt sl)) idm /\ eqm D D (mm D (mxt sl) (mxt il)) idm /\
    exists kap, kap <> r0 /\ eqm D D (mxt x) (scm kap (Lm D (mxt sl))).
  Proof.
    intros Sx Px H. unfold MpsInf.roots_left in H. destruct (eigh (herm rdiv x)) as [[w u]| |] eqn:Eg; [|discriminate..]. cbn [rbind] in H.
    destruct (half Sx Px Eg) as (Su & Lw & d & f & kap & K0 & Hdf & U1 & U2 & Ex).
    destruct (masked_length Lw) as [L1 L2]. destruct (masked nrm rdiv le cutoff w) as [e ie]. cbn [fst snd] in *.
    destruct (@ncon_sl R iter iter_perm u (diagflat (map sqrtf e)) D D D) as (s' & Es & Ss & Vs); [exact Su | cbn [diagflat shape]; rewrite L1; reflexivity|].
    rewrite Es in H. cbn [rbind] in H.
    destruct (@ncon_il R iter iter_perm (diagflat (map sqrtf ie)) (conj_t u) D D D) as (i' & Ei & Si & Vi); [cbn [diagflat shape]; rewrite L2; reflexivity | exact Su|].
    rewrite Ei in H. cbn [rbind] in H. injection H as <- <-.
    assert (forall i j, i < D -> j < D -> elt s' [i; j] = d i *! elt u [j; i]) as Vs'.
    { intros i j Hi Hj. rewrite (Vs i j Hi Hj). destruct (Hdf i Hi) as (<- & _).
      transitivity (nsum D (fun l => elt u [j; l] *! (if l =? i then nth l (map sqrtf e) r0 else r0))); [reflexivity|].
      rewrite (@nsum_dg_r D i (fun l => elt u [j; l]) (fun l => nth l (map sqrtf e) r0) Hi). ring. }
    assert (forall i j, i < D -> j < D -> elt i' [i; j] = f j *! cj (elt u [i; j])) as Vi'.
    { intros i j Hi Hj. rewrite (Vi i j Hi Hj). destruct (Hdf j Hj) as (_ & <- & _).
      transitivity (nsum D (fun l => (if j =? l then nth j (map sqrtf ie) r0 else r0) *! cj (elt u [i; l]))); [reflexivity|].
      apply (@nsum_dg_l D j (fun l => cj (elt u [i; l])) (fun l => nth l (map sqrtf ie) r0) Hj). }
    split; [exact Ss|]. split; [exact Si|]. split; [|split].
    - intros i j Hi Hj. unfold mm, mxt, idm. rewrite Nat.eqb_sym. rewrite <- (U1 j i Hj Hi). apply nsum_ext. intros c Hcd.
      rewrite Vi', Vs' by assumption. destruct (Hdf c Hcd) as (_ & _ & _ & _ & E). transitivity ((d c *! f c) *! (elt u [j; c] *! cj (elt u [i; c]))); [ring | rewrite E; ring].
    - intros i j Hi Hj. unfold mm, mxt, idm. transitivity (nsum D (fun c => (d i *! f j) *! (cj (elt u [c; j]) *! elt u [c; i]))).
      + apply nsum_ext. intros c Hcd. rewrite Vs', Vi' by assumption. ring.
      + rewrite nsum_mul_l, (U2 j i Hj Hi). destruct (Nat.eqb_spec j i) as [->|Ne].
        * rewrite Nat.eqb_refl. destruct (Hdf i Hi) as (_ & _ & _ & _ & ->). ring.
        * rewrite (proj2 (Nat.eqb_neq i j)) by auto. ring.
    - exists kap. split; [exact K0|]. intros i j Hi Hj. unfold mxt at 1. rewrite (Ex i j Hi Hj). unfold scm, Lm, mm, tr, bar, mxt. f_equal.
      apply nsum_ext. intros c Hcd. rewrite !Vs' by assumption. rewrite cj_mul. destruct (Hdf c Hcd) as (_ & _ & -> & _). ring.
  Qed.

  Lemma roots_right_spec D (x sr ir : tensor) : shape x = [D; D] -> pos D (fun i j => elt x [i; j]) -> roots_right x = Ok (sr, ir) ->
    shape sr = [D; D] /\ shape ir = [D; D] /\ eqm D D (mm D (mxt ir) (mxt sr)) idm /\ eqm D D (mm D (mxt sr) (mxt ir)) idm /\
    exists kap, kap <> r0 /\ eqm D D (mxt x) (scm kap (Rm D (mxt sr))).
  Proof.
    intros Sx Px H. unfold MpsInf.roots_right in H. destruct (eigh (herm rdiv x)) as [[w u]| |] eqn:Eg; [|discriminate..]. cbn [rbind] in H.
    destruct (half Sx Px Eg) as (Su & Lw & d & f & kap & K0 & Hdf & U1 & U2 & Ex).
    destruct (masked_length Lw) as [L1 L2]. destruct (masked nrm rdiv le cutoff w) as [e ie]. cbn [fst snd] in *.
    destruct (@ncon_mm R iter iter_perm u (diagflat (map sqrtf e)) D D D) as (s' & Es & Ss & Vs); [exact Su | cbn [diagflat shape]; rewrite L1; reflexivity|].
    rewrite Es in H. cbn [rbind] in H.
    destruct (@ncon_ir R iter iter_perm (diagflat (map sqrtf ie)) (conj_t u) D D D) as (i' & Ei & Si & Vi); [cbn [diagflat shape]; rewrite L2; reflexivity | exact Su|].
    rewrite Ei in H. cbn [rbind] in H. injection H as <- <-.
    assert (forall i j, i < D -> j < D -> elt s' [i; j] = elt u [i; j] *! d j) as Vs'.
    { intros i j Hi Hj. rewrite (Vs i j Hi Hj). destruct (Hdf j Hj) as (<- & _).
      transitivity (nsum D (fun l => elt u [i; l] *! (if l =? j then nth l (map sqrtf e) r0 else r0))); [reflexivity|].
      apply (@nsum_dg_r D j (fun l => elt u [i; l]) (fun l => nth l (map sqrtf e) r0) Hj). }
    assert (forall i j, i < D -> j < D -> elt i' [i; j] = f i *! cj (elt u [j; i])) as Vi'.
    { intros i j Hi Hj. rewrite (Vi i j Hi Hj). destruct (Hdf i Hi) as (_ & <- & _).
      transitivity (nsum D (fun l => (if i =? l then nth i (map sqrtf ie) r0 else r0) *! cj (elt u [j; l]))); [reflexivity|].
      apply (@nsum_dg_l D i (fun l => cj (elt u [j; l])) (fun l => nth l (map sqrtf ie) r0) Hi). }
    split; [exact Ss|]. split; [exact Si|]. split; [|split].
    - intros i j Hi Hj. unfold mm, mxt, idm. transitivity (nsum D (fun c => (f i *! d j) *! (cj (elt u [c; i]) *! elt u [c; j]))).
      + apply nsum_ext. intros c Hcd. rewrite Vs', Vi' by assumption. ring.
      + rewrite nsum_mul_l, (U2 i j Hi Hj). destruct (Nat.eqb_spec i j) as [->|Ne]; [|ring].
        destruct (Hdf j Hj) as (_ & _ & _ & _ & E). transitivity (d j *! f j); [ring | exact E].
    - intros i j Hi Hj. unfold mm, mxt, idm. rewrite <- (U1 i j Hi Hj). apply nsum_ext. intros c Hcd.
      rewrite Vi', Vs' by assumption. destruct (Hdf c Hcd) as (_ & _ & _ & _ & E). transitivity ((d c *! f c) *! (elt u [i; c] *! cj (elt u [j; c]))); [ring | rewrite E; ring].
    - exists kap. split; [exact K0|]. intros i j Hi Hj. unfold mxt at 1. rewrite (Ex i j Hi Hj). unfold scm, Rm, mm, adj, mxt. f_equal.
      apply nsum_ext. intros c Hcd. rewrite !Vs' by assumption. rewrite cj_mul. destruct (Hdf c Hcd) as (_ & _ & -> & _). ring.
  Qed.
End Roots.
