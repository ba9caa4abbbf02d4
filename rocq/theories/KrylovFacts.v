(** * KrylovFacts: linear algebra in an inner product space *)
From Coq Require Import Field.
From Verif Require Import Prelude Algebra Krylov.
Set Implicit Arguments.
Unset Strict Implicit.

Section Scalars.
  Context {K : cfd}.
  Add Field Kf : (cfth K).
  Implicit Types x y : K.

  Lemma cj_op x : cj (cop x) = cop (cj x).
  Proof.
    assert (H : cj (x +! cop x) = r0) by (replace (x +! cop x) with (r0 : K) by ring; apply cj_0).
    rewrite cj_add in H. replace (cj (cop x)) with ((cj x +! cj (cop x)) -! cj x) by ring. rewrite H. ring.
  Qed.
  Lemma one_neq0 : (r1 : K) <> r0.
  Proof. exact (F_1_neq_0 (cfth K)). Qed.
  Lemma cinv_l x : x <> r0 -> cinv x *! x = r1.
  Proof. exact (@Finv_l _ _ _ _ _ _ _ _ _ _ (cfth K) x). Qed.
  Lemma mul_eq0 x y : x *! y = r0 -> x = r0 \/ y = r0.
  Proof.
    intros H. destruct (cdec x r0) as [E|E]; [left; exact E|right].
    transitivity (cinv x *! (x *! y)); [field; exact E|]. rewrite H. ring.
  Qed.
  Lemma cj_eq0 x : cj x = r0 -> x = r0.
  Proof. intros H. rewrite <- (cj_inv K x), H. apply cj_0. Qed.
  Lemma sq_eq0 x : cj x *! x = r0 -> x = r0.
  Proof. intros H. apply mul_eq0 in H. destruct H as [H|H]; [apply cj_eq0|]; exact H. Qed.
  Lemma cj_cinv x : x <> r0 -> cj (cinv x) = cinv (cj x).
  Proof.
    intros H. assert (H' : cj x <> r0) by (intros E; apply H, cj_eq0, E).
    transitivity (cj (cinv x) *! cj x *! cinv (cj x)); [field; exact H'|].
    rewrite <- cj_mul, cinv_l, cj_1 by exact H. ring.
  Qed.
  Lemma cpos_1 : cpos (r1 : K).
  Proof. pose proof (cpos_sq (r1 : K)) as H. rewrite cj_1 in H. replace (r1 *! r1) with (r1 : K) in H by ring. exact H. Qed.
  Lemma cpos_0 : cpos (r0 : K).
  Proof. pose proof (cpos_sq (r0 : K)) as H. rewrite cj_0 in H. replace (r0 *! r0) with (r0 : K) in H by ring. exact H. Qed.
  (** a non-negative square root of 1 is 1 *)
  Lemma sqrt1 x : x *! x = r1 -> cpos x -> x = r1.
  Proof.
    intros H P. assert (E : (x -! r1) *! (x +! r1) = r0) by (transitivity (x *! x -! r1); [ring|rewrite H; ring]).
    apply mul_eq0 in E. destruct E as [E|E].
    - transitivity ((x -! r1) +! r1); [ring|rewrite E; ring].
    - exfalso. assert (Ex : x = cop r1) by (transitivity ((x +! r1) -! r1); [ring|rewrite E; ring]).
      rewrite Ex in P. exact (one_neq0 (cpos_anti cpos_1 P)).
  Qed.
  Lemma cpos_lsum B (l : list B) (f : B -> K) : (forall u, In u l -> cpos (f u)) -> cpos (lsum l f).
  Proof.
    induction l as [|x r IH]; intros H; [exact cpos_0|]. rewrite lsum_cons.
    apply cpos_add; [apply H, in_eq|apply IH; intros; apply H; right; assumption].
  Qed.
  Lemma cop_lsum B (l : list B) (f : B -> K) : cop (lsum l f) = lsum l (fun u => cop (f u)).
  Proof. induction l as [|x r IH]; [cbn; ring|]. rewrite !lsum_cons, <- IH. ring. Qed.
End Scalars.

Section Vectors.
  Context {K : cfd} {V : ips K}.
  Add Field Kf2 : (cfth K).
  Implicit Types a b : K.
  Implicit Types x y z v w : V.

  Lemma ip_0 x : ip x vz = r0.
  Proof. rewrite <- (vs_0 x), ip_vs. ring. Qed.
  Lemma ip_0l x : ip vz x = r0.
  Proof. rewrite (ip_cj x vz), ip_0. apply cj_0. Qed.
  Lemma ip_addl x y z : ip (va x y) z = ip x z +! ip y z.
  Proof. rewrite (ip_cj z), ip_add, cj_add, <- !ip_cj. reflexivity. Qed.
  Lemma ip_vsl a x y : ip (vs a x) y = cj a *! ip x y.
  Proof. rewrite (ip_cj y), ip_vs, cj_mul, <- !ip_cj. reflexivity. Qed.
  Lemma ip_sub x y z : ip x (vsub y z) = ip x y -! ip x z.
  Proof. unfold vsub. rewrite ip_add, ip_vs. ring. Qed.
  Lemma ip_subl x y z : ip (vsub x y) z = ip x z -! ip y z.
  Proof. unfold vsub. rewrite ip_addl, ip_vsl, cj_op, cj_1. ring. Qed.

  Lemma vsub_self x : vsub x x = vz.
  Proof.
    unfold vsub. transitivity (va (vs r1 x) (vs (cop r1) x)); [rewrite vs_1; reflexivity|]. rewrite <- vs_add. replace (r1 +! cop r1) with (r0 : K) by ring. apply vs_0.
  Qed.
  Lemma vsub_0_eq x y : vsub x y = vz -> x = y.
  Proof.
    intros H. transitivity (va x (vsub y y)); [rewrite vsub_self, va_z; reflexivity|].
    transitivity (va y (vsub x y)); [|rewrite H, va_z; reflexivity].
    unfold vsub. rewrite !va_assoc, (va_comm x y). reflexivity.
  Qed.
  (** two vectors with the same inner products are equal: linear identities become identities of scalars *)
  Lemma vec_ext x y : (forall z, ip z x = ip z y) -> x = y.
  Proof.
    intros H. apply vsub_0_eq, ip_def. rewrite ip_sub, H. ring.
  Qed.

  (** *** linear combinations *)
  Fixpoint comb (cs : list K) (l : list V) : V :=
    match cs, l with c :: cs, x :: l => va (vs c x) (comb cs l) | _, _ => vz end.
  Definition vsum n (f : nat -> V) : V := fold_right (fun i acc => va (f i) acc) vz (seq 0 n).

  Lemma ip_fold z (l : list nat) (f : nat -> V) :
    ip z (fold_right (fun i acc => va (f i) acc) vz l) = lsum l (fun i => ip z (f i)).
  Proof. induction l as [|i r IH]; [apply ip_0|]. simpl. rewrite ip_add, IH. reflexivity. Qed.
  Lemma ip_vsum z n f : ip z (vsum n f) = nsum n (fun i => ip z (f i)).
  Proof. apply ip_fold. Qed.
  Lemma ip_vsuml z n f : ip (vsum n f) z = nsum n (fun i => ip (f i) z).
  Proof.
    rewrite (ip_cj z), ip_vsum, cj_nsum. apply nsum_ext. intros i Hi. symmetry. apply ip_cj.
  Qed.
  Lemma vsum_S n f : vsum (S n) f = va (vsum n f) (f n).
  Proof. apply vec_ext. intros z. rewrite ip_add, !ip_vsum, nsum_S. reflexivity. Qed.
  Lemma nsum_shift n (f : nat -> K) : nsum (S n) f = f 0 +! nsum n (fun i => f (S i)).
  Proof. unfold nsum. simpl. rewrite <- seq_shift, lsum_map. reflexivity. Qed.
  Lemma vsum_shift n f : vsum (S n) f = va (f 0) (vsum n (fun i => f (S i))).
  Proof. apply vec_ext. intros z. rewrite ip_add, !ip_vsum. apply nsum_shift. Qed.
  Lemma vsum_ext n f g : (forall i, i < n -> f i = g i) -> vsum n f = vsum n g.
  Proof. intros H. apply vec_ext. intros z. rewrite !ip_vsum. apply nsum_ext. intros i Hi. rewrite H by exact Hi. reflexivity. Qed.

  (** a map with an adjoint is linear *)
  Section Adjoint.
    Variables A B : V -> V.
    Hypothesis adj : forall x y, ip x (A y) = ip (B x) y.
    Lemma adj_add x y : A (va x y) = va (A x) (A y).
    Proof. apply vec_ext. intros z. rewrite adj, !ip_add, !adj. reflexivity. Qed.
    Lemma adj_vs a x : A (vs a x) = vs a (A x).
    Proof. apply vec_ext. intros z. rewrite adj, !ip_vs, adj. reflexivity. Qed.
    Lemma adj_vsum n f : A (vsum n f) = vsum n (fun i => A (f i)).
    Proof.
      apply vec_ext. intros z. rewrite adj, !ip_vsum. apply nsum_ext. intros i Hi. rewrite adj. reflexivity.
    Qed.
  End Adjoint.
End Vectors.
Arguments comb {K V}.

(** ** Spans *)
Section Span.
  Context {K : cfd} {V : ips K}.
  Add Field Kf3 : (cfth K).
  Implicit Types (f g : nat -> V) (x y : V) (n m i j : nat).
  Definition spanf n f x : Prop := exists c : nat -> K, x = vsum n (fun i => vs (c i) (f i)).

  Lemma spanf_add n f x y : spanf n f x -> spanf n f y -> spanf n f (va x y).
  Proof.
    intros [c ->] [d ->]. exists (fun i => c i +! d i). apply vec_ext. intros z.
    rewrite ip_add, !ip_vsum, <- nsum_add. apply nsum_ext. intros i Hi. rewrite !ip_vs. ring.
  Qed.
  Lemma spanf_vs n f a x : spanf n f x -> spanf n f (vs a x).
  Proof.
    intros [c ->]. exists (fun i => a *! c i). apply vec_ext. intros z.
    rewrite ip_vs, !ip_vsum, <- nsum_mul_l. apply nsum_ext. intros i Hi. rewrite !ip_vs. ring.
  Qed.
  Lemma spanf_0 n f : spanf n f vz.
  Proof.
    exists (fun _ => r0). apply vec_ext. intros z. rewrite ip_0, ip_vsum. symmetry. apply nsum_zero.
    intros i Hi. rewrite ip_vs. ring.
  Qed.
  Lemma spanf_in n f i : i < n -> spanf n f (f i).
  Proof.
    intros Hi. exists (fun j => if j =? i then r1 else r0). apply vec_ext. intros z. rewrite ip_vsum.
    rewrite (@nsum_single K n _ i); [rewrite Nat.eqb_refl, ip_vs; ring|exact Hi|].
    intros j Hj Hn. apply Nat.eqb_neq in Hn. rewrite Hn, ip_vs. ring.
  Qed.
  Lemma spanf_sub n f x y : spanf n f x -> spanf n f y -> spanf n f (vsub x y).
  Proof. intros Hx Hy. apply spanf_add; [exact Hx|apply spanf_vs, Hy]. Qed.
  Lemma spanf_vsum n f m g : (forall i, i < m -> spanf n f (g i)) -> spanf n f (vsum m g).
  Proof.
    induction m as [|m IH]; intros H; [apply spanf_0|]. rewrite vsum_S.
    apply spanf_add; [apply IH; intros; apply H; lia|apply H; lia].
  Qed.
  Lemma spanf_trans n f m g x : spanf n f x -> (forall i, i < n -> spanf m g (f i)) -> spanf m g x.
  Proof. intros [c ->] H. apply spanf_vsum. intros i Hi. apply spanf_vs, H, Hi. Qed.
  Lemma spanf_le n m f x : n <= m -> spanf n f x -> spanf m f x.
  Proof. intros H Hx. apply (spanf_trans Hx). intros i Hi. apply spanf_in. lia. Qed.
  Lemma spanf_ext n f g x : (forall i, i < n -> f i = g i) -> spanf n f x -> spanf n g x.
  Proof. intros H Hx. apply (spanf_trans Hx). intros i Hi. rewrite H by exact Hi. apply spanf_in, Hi. Qed.
End Span.

Lemma ent_mkmx (K : cfd) n m (f : nat -> nat -> K) i j : i < n -> j < m -> ent (mkmx n m f) i j = f i j.
Proof.
  intros Hi Hj. unfold ent, mkmx.
  rewrite (nth_indep _ [] (map (f 0) (seq 0 m))) by (rewrite map_length, seq_length; exact Hi).
  rewrite (map_nth (fun i => map (f i) (seq 0 m))), seq_nth by exact Hi. simpl.
  rewrite (nth_indep _ r0 (f i 0)) by (rewrite map_length, seq_length; exact Hj).
  rewrite (map_nth (f i)), seq_nth by exact Hj. reflexivity.
Qed.
Lemma mkmx_length (K : Type) n m (f : nat -> nat -> K) : length (mkmx n m f) = n.
Proof. unfold mkmx. rewrite map_length. apply seq_length. Qed.
