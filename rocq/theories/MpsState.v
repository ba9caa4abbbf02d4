(** * MpsState: amplitudes of concatenated and rescaled chains *)
From Coq Require Import List ZArith Lia.
From Verif Require Import Prelude Res Algebra Tensor TensorFacts ListFacts Ncon BlockSparse Backends DecompFacts Mps MpsSpec.
Import ListNotations.
Set Implicit Arguments.
Unset Strict Implicit.
Local Open Scope nat_scope.
Local Open Scope csr_scope.

Section State.
  Context {R : cjr}.
  Add Ring Rring : (rsr R).
  Notation tensor := (Tensor.tensor R).

  Lemma chain_app (x y : list tensor) : forall l r, chain l (x ++ y) r <-> exists m, chain l x m /\ chain m y r.
  Proof.
    induction x as [|t x IH]; intros l r; cbn.
    - split; [intros H; exists l; auto | intros (m & -> & H); exact H].
    - split.
      + intros (d & k & S & H). apply IH in H as (m & H1 & H2). exists m. split; [exists d, k; auto | exact H2].
      + intros (m & (d & k & S & H1) & H2). exists d, k. split; [exact S|]. apply IH. eauto.
  Qed.
  Lemma phys_app (x y : list tensor) : phys (x ++ y) = phys x ++ phys y.
  Proof. apply map_app. Qed.
  Lemma phys_length (x : list tensor) : length (phys x) = length x.
  Proof. apply map_length. Qed.

  Lemma nsum_delta_l n a (f : nat -> R) : a < n -> nsum n (fun c => (if a =? c then r1 else r0) *! f c) = f a.
  Proof.
    intros H. rewrite (@nsum_single R n _ a); [rewrite Nat.eqb_refl; ring | exact H |].
    intros i Hi Ne. rewrite (proj2 (Nat.eqb_neq a i)) by auto. ring.
  Qed.
  Lemma nsum_delta_r n b (f : nat -> R) : b < n -> nsum n (fun c => f c *! (if c =? b then r1 else r0)) = f b.
  Proof.
    intros H. rewrite (@nsum_single R n _ b); [rewrite Nat.eqb_refl; ring | exact H |].
    intros i Hi Ne. rewrite (proj2 (Nat.eqb_neq i b)) by auto. ring.
  Qed.

  Lemma amp_app (x y : list tensor) : forall l m a s1 s2 b, chain l x m -> a < l -> length s1 = length x ->
    amp (x ++ y) a (s1 ++ s2) b = nsum m (fun c => amp x a s1 c *! amp y c s2 b).
  Proof.
    induction x as [|t x IH]; intros l m a s1 s2 b C Ha HL.
    - destruct s1; [|discriminate]. cbn in *. subst m. symmetry. apply (nsum_delta_l (fun c => amp y c s2 b) Ha).
    - destruct s1 as [|s s1]; [discriminate|]. destruct C as (d & k & S & C). cbn. rewrite S. cbn [nth].
      transitivity (nsum k (fun e => nsum m (fun c => elt t [a; s; e] *! (amp x e s1 c *! amp y c s2 b)))).
      + apply nsum_ext. intros e He. rewrite (IH k m e s1 s2 b C He) by (cbn in HL; lia). symmetry. apply nsum_mul_l.
      + rewrite nsum_swap. apply nsum_ext. intros c Hc. rewrite <- nsum_mul_r. apply nsum_ext. intros e He. ring.
  Qed.

  Lemma amp_one (t : tensor) l d k a s b : shape t = [l; d; k] -> b < k -> amp [t] a [s] b = elt t [a; s; b].
  Proof. intros S Hb. cbn. rewrite S. cbn [nth]. apply (nsum_delta_r (fun c => elt t [a; s; c]) Hb). Qed.
  Lemma amp_two (t u : tensor) l d k e r a s s' b : shape t = [l; d; k] -> shape u = [k; e; r] -> b < r ->
    amp [t; u] a [s; s'] b = nsum k (fun c => elt t [a; s; c] *! elt u [c; s'; b]).
  Proof.
    intros S S' Hb. cbn. rewrite S, S'. cbn [nth]. apply nsum_ext. intros c Hc. f_equal.
    apply (nsum_delta_r (fun c' => elt u [c; s'; c']) Hb).
  Qed.

  Lemma valid_split3 sg s1 s2 s3 : valid sg (s1 ++ s2 ++ s3) -> exists g1 g2 g3, sg = g1 ++ g2 ++ g3 /\ valid g1 s1 /\ valid g2 s2 /\ valid g3 s3.
  Proof.
    intros V. apply valid_app_inv in V as [V1 V2]. apply valid_app_inv in V2 as [V2 V3].
    do 3 eexists. split; [|split; [exact V1|split; [exact V2|exact V3]]]. rewrite !firstn_skipn. reflexivity.
  Qed.

  (** replacing a segment of the chain *)
  Lemma scaled_context (p x y q : list tensor) l m n r k :
    chain l p m -> chain m x n -> chain m y n -> chain n q r -> scaled m n k x y -> scaled l r k (p ++ x ++ q) (p ++ y ++ q).
  Proof.
    intros Cp Cx Cy Cq (P & A). split; [rewrite !phys_app, P; reflexivity|].
    intros a sg b Ha Hb V. rewrite !phys_app in V. apply valid_split3 in V as (g1 & g2 & g3 & -> & V1 & V2 & V3).
    assert (length g1 = length p) as L1 by (rewrite <- (phys_length p); apply valid_length, V1).
    assert (length g2 = length x) as L2 by (rewrite <- (phys_length x); apply valid_length, V2).
    assert (length g2 = length y) as L2' by (rewrite <- (phys_length y), P; apply valid_length, V2).
    rewrite !(amp_app _ _ _ Cp Ha L1), <- nsum_mul_l. apply nsum_ext. intros c Hc.
    rewrite !(amp_app _ _ _ Cx Hc L2), !(amp_app _ _ _ Cy Hc L2').
    replace (nsum n (fun c0 => amp x c g2 c0 *! amp q c0 g3 b)) with (k *! nsum n (fun c0 => amp y c g2 c0 *! amp q c0 g3 b)); [ring|].
    rewrite <- nsum_mul_l. apply nsum_ext. intros e He. rewrite (A c g2 e Hc He V2). ring.
  Qed.

  Lemma scaled_refl l r (x : list tensor) : scaled l r r1 x x.
  Proof. split; [reflexivity|]. intros. ring. Qed.
  Lemma scaled_trans l r k k' (x y z : list tensor) : scaled l r k x y -> scaled l r k' y z -> scaled l r (k *! k') x z.
  Proof.
    intros (P & A) (P' & A'). split; [congruence|]. intros a sg b Ha Hb V. rewrite (A a sg b Ha Hb V).
    rewrite <- P in V. rewrite (A' a sg b Ha Hb V). ring.
  Qed.
  Lemma scaled_nonzero l r k (x y : list tensor) : scaled l r k x y -> nonzero l r x -> nonzero l r y.
  Proof.
    intros (P & A) (a & sg & b & Ha & Hb & V & N). exists a, sg, b. repeat split; try assumption.
    - rewrite P. exact V.
    - intros Z. apply N. rewrite (A a sg b Ha Hb V), Z. ring.
  Qed.
  Lemma scaled_zero l r (x y : list tensor) : scaled l r r0 x y -> ~ nonzero l r x.
  Proof. intros (P & A) (a & sg & b & Ha & Hb & V & N). apply N. rewrite (A a sg b Ha Hb V). ring. Qed.

  (** ** lists *)
  Lemma set_nth_app A (p : list A) x v q : set_nth (length p) v (p ++ x :: q) = p ++ v :: q.
  Proof. induction p; cbn; [reflexivity|]. f_equal. exact IHp. Qed.
  Lemma nth_error_split3 A (l : list A) n x : nth_error l n = Some x -> exists p q, l = p ++ x :: q /\ length p = n.
  Proof. intros H. apply nth_error_split in H as (p & q & -> & L). eauto. Qed.
  Lemma nth_error_split4 A (l : list A) n x y : nth_error l n = Some x -> nth_error l (n + 1) = Some y ->
    exists p q, l = p ++ x :: y :: q /\ length p = n.
  Proof.
    intros H H'. apply nth_error_split in H as (p & q & -> & L). exists p.
    rewrite nth_error_app2 in H' by lia. replace (n + 1 - length p) with 1 in H' by lia. cbn in H'.
    destruct q as [|y' q]; [discriminate|]. injection H' as ->. eauto.
  Qed.

  Lemma chain_shape (ts : list tensor) : forall l r n t, chain l ts r -> nth_error ts n = Some t -> exists a d b, shape t = [a; d; b].
  Proof.
    induction ts as [|u ts IH]; intros l r n t C H; [destruct n; discriminate|]. destruct C as (d & k & S & C).
    destruct n as [|n]; cbn in H; [injection H as <-; eauto | eapply IH; eassumption].
  Qed.

  (** division by the norm *)
  Variable nrm : tensor -> R.
  Variable rdiv : R -> R -> R.

  Lemma tdiv_last (t w : tensor) l d k e r z : div_ok rdiv -> shape t = [l; d; k] -> shape w = [k; e; r] -> z <> r0 ->
    scaled l r z [t; w] [t; tdiv rdiv w z].
  Proof.
    intros Hd S S' Hz. split; [reflexivity|]. intros a sg b Ha Hb V. cbn in V. rewrite S, S' in V. cbn in V.
    inversion V as [|s ? sg1 ? V1 V2]; subst. inversion V2 as [|s' ? sg2 ? V3 V4]; subst. inversion V4; subst.
    rewrite (amp_two a s s' S S' Hb), (@amp_two t (tdiv rdiv w z) l d k e r a s s' b S S' Hb), <- nsum_mul_l.
    apply nsum_ext. intros c Hc. cbn. rewrite <- (Hd (elt w [c; s'; b]) z Hz) at 1. ring.
  Qed.
  Lemma tdiv_first (t w : tensor) l d k e r z : div_ok rdiv -> shape w = [l; d; k] -> shape t = [k; e; r] -> z <> r0 ->
    scaled l r z [w; t] [tdiv rdiv w z; t].
  Proof.
    intros Hd S S' Hz. split; [reflexivity|]. intros a sg b Ha Hb V. cbn in V. rewrite S, S' in V. cbn in V.
    inversion V as [|s ? sg1 ? V1 V2]; subst. inversion V2 as [|s' ? sg2 ? V3 V4]; subst. inversion V4; subst.
    rewrite (amp_two a s s' S S' Hb), (@amp_two (tdiv rdiv w z) t l d k e r a s s' b S S' Hb), <- nsum_mul_l.
    apply nsum_ext. intros c Hc. cbn. rewrite <- (Hd (elt w [a; s; c]) z Hz) at 1. ring.
  Qed.
  Lemma tdiv_only (w : tensor) l d r z : div_ok rdiv -> shape w = [l; d; r] -> z <> r0 -> scaled l r z [w] [tdiv rdiv w z].
  Proof.
    intros Hd S Hz. split; [reflexivity|]. intros a sg b Ha Hb V. cbn in V. rewrite S in V. cbn in V.
    inversion V as [|s ? sg1 ? V1 V2]; subst. inversion V2; subst.
    rewrite (amp_one a s S Hb), (@amp_one (tdiv rdiv w z) l d r a s b S Hb). cbn. symmetry. apply Hd, Hz.
  Qed.
  Definition zero_t (t : tensor) : Prop := forall ix, valid ix (shape t) -> elt t ix = r0.
  Lemma zero_last (t w : tensor) l d k e r : shape t = [l; d; k] -> shape w = [k; e; r] -> zero_t w -> scaled l r r0 [t; w] [t; w].
  Proof.
    intros S S' Z. split; [reflexivity|]. intros a sg b Ha Hb V. cbn in V. rewrite S, S' in V. cbn in V.
    inversion V as [|s ? sg1 ? V1 V2]; subst. inversion V2 as [|s' ? sg2 ? V3 V4]; subst. inversion V4; subst.
    rewrite (amp_two a s s' S S' Hb). transitivity (@r0 R); [|ring]. apply nsum_zero. intros c Hc. rewrite (Z [c; s'; b]); [ring|].
    rewrite S'. repeat constructor; assumption.
  Qed.
  Lemma zero_first (t w : tensor) l d k e r : shape w = [l; d; k] -> shape t = [k; e; r] -> zero_t w -> scaled l r r0 [w; t] [w; t].
  Proof.
    intros S S' Z. split; [reflexivity|]. intros a sg b Ha Hb V. cbn in V. rewrite S, S' in V. cbn in V.
    inversion V as [|s ? sg1 ? V1 V2]; subst. inversion V2 as [|s' ? sg2 ? V3 V4]; subst. inversion V4; subst.
    rewrite (amp_two a s s' S S' Hb). transitivity (@r0 R); [|ring]. apply nsum_zero. intros c Hc. rewrite (Z [a; s; c]); [ring|].
    rewrite S. repeat constructor; assumption.
  Qed.
  Lemma zero_only (w : tensor) l d r : shape w = [l; d; r] -> zero_t w -> scaled l r r0 [w] [w].
  Proof.
    intros S Z. split; [reflexivity|]. intros a sg b Ha Hb V. cbn in V. rewrite S in V. cbn in V.
    inversion V as [|s ? sg1 ? V1 V2]; subst. inversion V2; subst.
    rewrite (amp_one a s S Hb). rewrite (Z [a; s; b]); [ring|]. rewrite S. repeat constructor; assumption.
  Qed.
End State.
