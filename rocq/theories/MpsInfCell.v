(** * MpsInfCell: words of cells, eigenvalues, and tensors multiplied from outside *)
From Coq Require Import List ZArith Lia Permutation.
From Verif Require Import Prelude Res Algebra Tensor TensorFacts ListFacts BlockSparse Backends
  Mps MpsSpec MpsState MpsDouble MpsPosition MpsInf MpsInfSpec MpsInfAlg MpsInfRoots.
Import ListNotations.
Set Implicit Arguments.
Unset Strict Implicit.
Local Open Scope nat_scope.
Local Open Scope csr_scope.

Section Cell.
  Context {R : cjr}.
  Add Ring Rring : (rsr R).
  Notation tensor := (Tensor.tensor R).
  Notation mx := (nat -> nat -> R).

  Lemma word_scale D (f g : nat -> list nat -> nat -> R) z ws :
    (forall a w b, In w ws -> a < D -> b < D -> f a w b = z *! g a w b) ->
    forall a b, a < D -> word D f ws a b = lprod ws (fun _ => z) *! word D g ws a b.
  Proof.
    induction ws as [|w ws IH]; intros H a b Ha.
    - cbn. ring.
    - cbn [word]. unfold lprod. cbn [fold_right]. fold (lprod ws (fun _ : list nat => z)). rewrite <- nsum_mul_l. apply nsum_ext. intros c Hc.
      rewrite (H a w c (or_introl eq_refl) Ha Hc). rewrite IH; [|intros; apply H; [right|..]; assumption | exact Hc]. ring.
  Qed.
  Lemma ring_scale D (f g : nat -> list nat -> nat -> R) z ws :
    (forall a w b, In w ws -> a < D -> b < D -> f a w b = z *! g a w b) -> ring_amp D f ws = lprod ws (fun _ => z) *! ring_amp D g ws.
  Proof. intros H. unfold ring_amp. rewrite <- nsum_mul_l. apply nsum_ext. intros a Ha. apply word_scale; assumption. Qed.

  (** a change of basis of the bond between the cells, [X Y = 1] *)
  Lemma word_gauge D k (X Y : mx) (M P : nat -> list nat -> nat -> R) : eqm D D (mm k X Y) idm ->
    forall ws, ws <> [] -> (forall w, In w ws -> eqm k k (fun a b => P a w b) (mm D Y (mm D (fun a b => M a w b) X))) ->
    eqm k k (word k P ws) (mm D Y (mm D (word D M ws) X)).
  Proof.
    intros XY. induction ws as [|w ws IH]; [congruence|]. intros _ H. pose proof (H w (or_introl eq_refl)) as Hw.
    change (word k P (w :: ws)) with (mm k (fun a b => P a w b) (word k P ws)).
    change (word D M (w :: ws)) with (mm D (fun a b => M a w b) (word D M ws)). rewrite Hw. destruct ws as [|w' ws].
    - change (word k P []) with (@idm R). change (word D M []) with (@idm R). rewrite (@mm_id_r R k k).
      rewrite (@mm_id_r R D D). reflexivity.
    - rewrite IH; [|discriminate | intros; apply H; right; assumption]. set (W := word D M (w' :: ws)).
      rewrite (@mm_assoc R k D k k Y), (@mm_assoc R D D k k _ X). rewrite <- (@mm_assoc R D k D k X Y), XY, (@mm_id_l R D k).
      rewrite (@mm_assoc R D D D k (fun a b => M a w b) W X). reflexivity.
  Qed.
  Lemma trace_gauge D k (X Y W : mx) : eqm D D (mm k X Y) idm -> nsum k (fun a => mm D Y (mm D W X) a a) = nsum D (fun a => W a a).
  Proof.
    intros XY. unfold mm. transitivity (nsum D (fun b => nsum D (fun c => W b c *! mm k X Y c b))).
    - transitivity (nsum k (fun a => nsum D (fun b => nsum D (fun c => Y a b *! (W b c *! X c a))))).
      + apply nsum_ext. intros a _. apply nsum_ext. intros b _. rewrite <- nsum_mul_l. reflexivity.
      + rewrite nsum_swap. apply nsum_ext. intros b _. rewrite nsum_swap. apply nsum_ext. intros c _. unfold mm. rewrite <- nsum_mul_l. apply nsum_ext. intros a _. ring.
    - apply nsum_ext. intros b Hb. transitivity (nsum D (fun c => W b c *! (if c =? b then r1 else r0))).
      + apply nsum_ext. intros c Hc. rewrite (XY c b Hc Hb). reflexivity.
      + apply (nsum_delta_r (fun c => W b c) Hb).
  Qed.
  Lemma ring_gauge D k (X Y : mx) (M P : nat -> list nat -> nat -> R) ws : eqm D D (mm k X Y) idm -> ws <> [] ->
    (forall w, In w ws -> eqm k k (fun a b => P a w b) (mm D Y (mm D (fun a b => M a w b) X))) -> ring_amp k P ws = ring_amp D M ws.
  Proof.
    intros XY Hw H. unfold ring_amp. rewrite <- (@trace_gauge D k X Y (word D M ws) XY). apply nsum_ext. intros a Ha.
    apply (word_gauge XY Hw H); assumption.
  Qed.

  (** the two maps of a cell are transposes of each other *)
  Section Eigen.
    Context {I : Type}.
    Variables (D : nat) (ss : list I) (M : I -> mx).
    Definition lmap (x : mx) : mx := fun i j => nsum D (fun a => nsum D (fun b => x a b *! lsum ss (fun sg => M sg a i *! cj (M sg b j)))).
    Definition rmap (x : mx) : mx := fun i j => nsum D (fun a => nsum D (fun b => x a b *! lsum ss (fun sg => M sg i a *! cj (M sg j b)))).
    Lemma lmap_msum x : eqm D D (msum ss (fun sg => mm D (tr (M sg)) (mm D x (bar (M sg))))) (lmap x).
    Proof.
      intros i j _ _. unfold msum, lmap, mm, tr, bar. unfold nsum at 1. rewrite lsum_swap. apply nsum_ext. intros a _.
      transitivity (lsum ss (fun sg => nsum D (fun b => x a b *! (M sg a i *! cj (M sg b j))))).
      - apply lsum_ext. intros sg _. rewrite <- nsum_mul_l. apply nsum_ext. intros b _. ring.
      - unfold nsum. rewrite lsum_swap. apply lsum_ext. intros b _. rewrite <- lsum_mul_l. reflexivity.
    Qed.
    Lemma rmap_msum x : eqm D D (msum ss (fun sg => mm D (M sg) (mm D x (adj (M sg))))) (rmap x).
    Proof.
      intros i j _ _. unfold msum, rmap, mm, adj. unfold nsum at 1. rewrite lsum_swap. apply nsum_ext. intros a _.
      transitivity (lsum ss (fun sg => nsum D (fun b => x a b *! (M sg i a *! cj (M sg j b))))).
      - apply lsum_ext. intros sg _. rewrite <- nsum_mul_l. apply nsum_ext. intros b _. ring.
      - unfold nsum. rewrite lsum_swap. apply lsum_ext. intros b _. rewrite <- lsum_mul_l. reflexivity.
    Qed.
    Definition mdot (x y : mx) : R := nsum D (fun i => nsum D (fun j => x i j *! y i j)).
    Lemma maps_adjoint x y : mdot (lmap x) y = mdot x (rmap y).
    Proof.
      unfold mdot, lmap, rmap.
      transitivity (nsum D (fun i => nsum D (fun j => nsum D (fun a => nsum D (fun b => x a b *! (y i j *! lsum ss (fun sg => M sg a i *! cj (M sg b j)))))))).
      - apply nsum_ext. intros i _. apply nsum_ext. intros j _. rewrite <- nsum_mul_r. apply nsum_ext. intros a _. rewrite <- nsum_mul_r. apply nsum_ext. intros b _. ring.
      - transitivity (nsum D (fun a => nsum D (fun b => nsum D (fun i => nsum D (fun j => x a b *! (y i j *! lsum ss (fun sg => M sg a i *! cj (M sg b j)))))))).
        + unfold nsum. apply (@lsum_swap22 R).
        + apply nsum_ext. intros a _. apply nsum_ext. intros b _. rewrite <- nsum_mul_l. apply nsum_ext. intros i _. rewrite <- nsum_mul_l. reflexivity.
    Qed.
    Lemma same_eigenvalue x y e e' : eqm D D (lmap x) (scm e x) -> eqm D D (rmap y) (scm e' y) -> mdot x y *! e = mdot x y *! e'.
    Proof.
      intros H H'. transitivity (mdot (lmap x) y); [|rewrite maps_adjoint]; unfold mdot; rewrite <- nsum_mul_r; apply nsum_ext; intros i Hi;
        rewrite <- nsum_mul_r; apply nsum_ext; intros j Hj.
      - rewrite (H i j Hi Hj). unfold scm. ring.
      - rewrite (H' i j Hi Hj). unfold scm. ring.
    Qed.
    Lemma mdot_LmRm (Sl Sr : mx) : mdot (Lm D Sl) (Rm D Sr) = nsum D (fun c => nsum D (fun d => mm D Sl Sr c d *! cj (mm D Sl Sr c d))).
    Proof.
      unfold mdot, Lm, Rm, mm, tr, bar, adj.
      transitivity (nsum D (fun i => nsum D (fun j => nsum D (fun c => nsum D (fun d => (Sl c i *! Sr i d) *! cj (Sl c j *! Sr j d)))))).
      - apply nsum_ext. intros i _. apply nsum_ext. intros j _. rewrite <- nsum_mul_r. apply nsum_ext. intros c _. rewrite <- nsum_mul_l.
        apply nsum_ext. intros d _. rewrite cj_mul. ring.
      - transitivity (nsum D (fun c => nsum D (fun d => nsum D (fun i => nsum D (fun j => (Sl c i *! Sr i d) *! cj (Sl c j *! Sr j d)))))).
        + unfold nsum. apply (@lsum_swap22 R).
        + apply nsum_ext. intros c _. apply nsum_ext. intros d _. rewrite cj_nsum. rewrite <- nsum_mul_r. apply nsum_ext. intros i _. rewrite <- nsum_mul_l. reflexivity.
    Qed.
  End Eigen.

  (** a matrix multiplied to the first or the last tensor *)
  Lemma amp_first (t t' : tensor) q l d n p (A : mx) : shape t = [l; d; n] -> shape t' = [p; d; n] ->
    (forall i s j, i < p -> s < d -> j < n -> elt t' [i; s; j] = nsum l (fun z => A i z *! elt t [z; s; j])) ->
    forall i sg b, i < p -> valid sg (phys (t :: q)) -> amp (t' :: q) i sg b = nsum l (fun z => A i z *! amp (t :: q) z sg b).
  Proof.
    intros S S' H i sg b Hi V. cbn [phys map] in V. rewrite S in V. cbn [nth] in V. inversion V as [|s ? sr ? Hs Vr]; subst. cbn [amp]. rewrite S, S'. cbn [nth].
    transitivity (nsum n (fun c => nsum l (fun z => A i z *! (elt t [z; s; c] *! amp q c sr b)))).
    - apply nsum_ext. intros c Hc. rewrite (H i s c Hi Hs Hc). rewrite <- nsum_mul_r. apply nsum_ext. intros z _. ring.
    - rewrite nsum_swap. apply nsum_ext. intros z _. rewrite nsum_mul_l. reflexivity.
  Qed.
  Lemma amp_last (p : list tensor) (t t' : tensor) l m d k n (B : mx) : chain l p m -> shape t = [m; d; k] -> shape t' = [m; d; n] ->
    (forall i s j, i < m -> s < d -> j < n -> elt t' [i; s; j] = nsum k (fun z => elt t [i; s; z] *! B z j)) ->
    forall a sg b, a < l -> b < n -> valid sg (phys (p ++ [t])) -> amp (p ++ [t']) a sg b = nsum k (fun z => amp (p ++ [t]) a sg z *! B z b).
  Proof.
    intros C S S' H a sg b Ha Hb V. rewrite phys_app in V. apply Forall2_app_inv_r in V. destruct V as (g1 & g2 & V1 & V2 & ->).
    cbn [phys map] in V2. rewrite S in V2. cbn [nth] in V2. inversion V2 as [|s ? sr ? Hs Vr]; subst. inversion Vr; subst.
    assert (length g1 = length p) as L1 by (rewrite <- phys_length; exact (valid_length V1)).
    rewrite (@amp_app R p [t'] l m a g1 [s] b C Ha L1). transitivity (nsum m (fun c => nsum k (fun z => amp p a g1 c *! (elt t [c; s; z] *! B z b)))).
    - apply nsum_ext. intros c Hc. rewrite (@amp_one R t' m d n c s b S' Hb). rewrite (H c s b Hc Hs Hb), nsum_mul_l. reflexivity.
    - rewrite nsum_swap. apply nsum_ext. intros z Hz. rewrite (@amp_app R p [t] l m a g1 [s] z C Ha L1), <- nsum_mul_r. apply nsum_ext. intros c Hc.
      rewrite (@amp_one R t m d k c s z S Hz). ring.
  Qed.
End Cell.
