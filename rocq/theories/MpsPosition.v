(** * MpsPosition: the sweeps of [position] *)
From Coq Require Import List ZArith Lia Permutation.
From Verif Require Import Prelude Res Algebra Tensor TensorFacts ListFacts Ncon BlockSparse Backends DecompFacts
  Mps MpsSpec MpsNcon MpsSplit MpsState.
Import ListNotations.
Set Implicit Arguments.
Unset Strict Implicit.
Local Open Scope nat_scope.
Local Open Scope csr_scope.

Section Position.
  Context {R : cjr} {E : Type}.
  Add Ring Rring : (rsr R).
  Notation tensor := (Tensor.tensor R).
  Variable iter : list Z -> list Z.
  Variable qrf : tensor -> res (tensor * tensor).
  Variable svdf : tensor -> res (tensor * list R * tensor).
  Variable nkeep : bool -> option nat -> option E -> list R -> nat.
  Variable err_ge1 : E -> bool.
  Variable nrm : tensor -> R.
  Variable rdiv : R -> R -> R.
  Hypothesis iter_perm : forall l, Permutation (iter l) l.
  Hypothesis Hqr : qr_ok qrf.
  Hypothesis Hsvd : svd_ok svdf.

  (** no singular value other than zero is discarded: there is no truncation, or it is lossless *)
  Definition exact (D : option nat) (err : option E) : Prop :=
    (D = None /\ err = None) \/
    (forall t p u s v tw, svd_at svdf nkeep true D err t p = Ok (u, s, v, tw) -> forall x, In x tw -> x = r0).

  Variables (normalize : bool) (D : option nat) (err : option E).
  Notation split_right := (split_right iter qrf svdf nkeep D err).
  Notation split_left := (split_left iter qrf svdf nkeep D err).
  Notation move_right := (move_right iter qrf svdf nkeep nrm rdiv normalize D err).
  Notation move_left := (move_left iter qrf svdf nkeep nrm rdiv normalize D err).

  Lemma diag_rows (s : list R) k (v : tensor) n : length s = k -> shape v = [k; n] ->
    exists w, ncon_z iter [diagflat s; v] [[-1; 1]; [1; -2]]%Z = Ok w /\ shape w = [k; n] /\
      forall i j, i < k -> j < n -> elt w [i; j] = nth i s r0 *! elt v [i; j].
  Proof.
    intros L S. destruct (@ncon_mm R iter iter_perm (diagflat s) v k k n) as (w & W1 & W2 & W3); [cbn; rewrite L; reflexivity | exact S|].
    exists w. split; [exact W1|]. split; [exact W2|]. intros i j Hi Hj. rewrite W3 by assumption.
    rewrite (@nsum_single R k _ i); [cbn; rewrite Nat.eqb_refl; reflexivity | exact Hi|].
    intros x Hx Ne. cbn. rewrite (proj2 (Nat.eqb_neq i x)) by auto. ring.
  Qed.
  Lemma diag_cols (s : list R) k (u : tensor) m : length s = k -> shape u = [m; k] ->
    exists w, ncon_z iter [u; diagflat s] [[-1; 1]; [1; -2]]%Z = Ok w /\ shape w = [m; k] /\
      forall i j, i < m -> j < k -> elt w [i; j] = elt u [i; j] *! nth j s r0.
  Proof.
    intros L S. destruct (@ncon_mm R iter iter_perm u (diagflat s) m k k) as (w & W1 & W2 & W3); [exact S | cbn; rewrite L; reflexivity|].
    exists w. split; [exact W1|]. split; [exact W2|]. intros i j Hi Hj. rewrite W3 by assumption.
    rewrite (@nsum_single R k _ j); [cbn; rewrite Nat.eqb_refl; reflexivity | exact Hj|].
    intros x Hx Ne. cbn. rewrite (proj2 (Nat.eqb_neq x j)) by auto. ring.
  Qed.

  Lemma valid1 i n : i < n -> valid [i] [n]. Proof. intros H. repeat constructor. exact H. Qed.
  Lemma valid2 i j n m : i < n -> j < m -> valid [i; j] [n; m]. Proof. intros H H'. repeat constructor; assumption. Qed.

  Lemma split_right_spec ts n (t iso rest : tensor) l d r : shape t = [l; d; r] -> split_right ts n t = Ok (iso, rest) ->
    exists k, shape iso = [l; d; k] /\ shape rest = [k; r] /\ left_iso iso /\
      (exact D err -> forall a s b, a < l -> s < d -> b < r ->
         nsum k (fun c => elt iso [a; s; c] *! elt rest [c; b]) = elt t [a; s; b]).
  Proof.
    intros S H. unfold Mps.split_right in H. destruct (use_svd ts D err (n + 1)) as [b| |] eqn:U; try discriminate. cbn [rbind] in H.
    destruct b.
    - destruct (svd_at svdf nkeep true D err t 2) as [[[[u s] v] tw]| |] eqn:F; try discriminate. cbn [rbind] in H.
      destruct (@svd_at_spec R E svdf nkeep Hsvd t u v s tw true D err [l; d] [r] 2 S eq_refl F) as (S1 & S2 & I1 & I2 & P). cbn in S1, S2.
      destruct (@diag_rows s (length s) v r eq_refl S2) as (w & W1 & W2 & W3). rewrite W1 in H. cbn in H. injection H as <- <-.
      exists (length s). split; [exact S1|]. split; [exact W2|]. split; [exact (cols_iso_left S1 I1)|].
      intros X a s' b Ha Hs Hb. assert (forall x, In x tw -> x = r0) as Z.
      { destruct X as [[X1 X2] | X]; [|eapply X; exact F]. rewrite X1, X2 in U. cbn in U. discriminate. }
      etransitivity; [|exact (P Z [a; s'] [b] (valid2 Ha Hs) (valid1 Hb))]. apply nsum_ext. intros c Hc. rewrite W3 by assumption. cbn. ring.
    - destruct (@qr_at_spec R qrf Hqr t iso rest [l; d] [r] 2 S eq_refl H) as (S1 & S2 & I1 & P). cbn in S1, S2.
      eexists. split; [exact S1|]. split; [exact S2|]. split; [exact (cols_iso_left S1 I1)|].
      intros _ a s' b Ha Hs Hb. etransitivity; [|exact (P [a; s'] [b] (valid2 Ha Hs) (valid1 Hb))]. reflexivity.
  Qed.

  Lemma split_left_spec ts n (t iso rest : tensor) l d r : shape t = [l; d; r] -> split_left ts n t = Ok (rest, iso) ->
    exists k, shape iso = [k; d; r] /\ shape rest = [l; k] /\ right_iso iso /\
      (exact D err -> forall a s b, a < l -> s < d -> b < r ->
         nsum k (fun c => elt rest [a; c] *! elt iso [c; s; b]) = elt t [a; s; b]).
  Proof.
    intros S H. unfold Mps.split_left in H. destruct (use_svd ts D err n) as [b| |] eqn:U; try discriminate. cbn [rbind] in H.
    destruct b.
    - destruct (svd_at svdf nkeep true D err t 1) as [[[[u s] v] tw]| |] eqn:F; try discriminate. cbn [rbind] in H.
      destruct (@svd_at_spec R E svdf nkeep Hsvd t u v s tw true D err [l] [d; r] 1 S eq_refl F) as (S1 & S2 & I1 & I2 & P). cbn in S1, S2.
      destruct (@diag_cols s (length s) u l eq_refl S1) as (w & W1 & W2 & W3). rewrite W1 in H. cbn in H. injection H as <- <-.
      exists (length s). split; [exact S2|]. split; [exact W2|]. split; [exact (rows_iso_right S2 I2)|].
      intros X a s' b Ha Hs Hb. assert (forall x, In x tw -> x = r0) as Z.
      { destruct X as [[X1 X2] | X]; [|eapply X; exact F]. rewrite X1, X2 in U. cbn in U. discriminate. }
      etransitivity; [|exact (P Z [a] [s'; b] (valid1 Ha) (valid2 Hs Hb))]. apply nsum_ext. intros c Hc. rewrite W3 by assumption. cbn. ring.
    - destruct (@rq_at_spec R qrf Hqr t iso rest [l] [d; r] 1 S eq_refl H) as (S1 & S2 & I1 & P). cbn in S1, S2.
      eexists. split; [exact S2|]. split; [exact S1|]. split; [exact (rows_iso_right S2 I1)|].
      intros _ a s' b Ha Hs Hb. etransitivity; [|exact (P [a] [s'; b] (valid1 Ha) (valid2 Hs Hb))]. reflexivity.
  Qed.

  (** the pairs exchanged by one step *)
  Lemma pair_right (t u iso rest w : tensor) l d k e m r : shape t = [l; d; m] -> shape u = [m; e; r] -> shape iso = [l; d; k] ->
    shape w = [k; e; r] ->
    (forall a s b, a < l -> s < d -> b < m -> nsum k (fun c => elt iso [a; s; c] *! elt rest [c; b]) = elt t [a; s; b]) ->
    (forall i s j, i < k -> s < e -> j < r -> elt w [i; s; j] = nsum m (fun c => elt rest [i; c] *! elt u [c; s; j])) ->
    scaled l r r1 [t; u] [iso; w].
  Proof.
    intros St Su Si Sw P W. split; [unfold phys; cbn; rewrite St, Su, Si, Sw; reflexivity|].
    intros a sg b Ha Hb V. unfold phys in V. cbn in V. rewrite St, Su in V. cbn in V.
    inversion V as [|s ? sg1 ? V1 V2]; subst. inversion V2 as [|s' ? sg2 ? V3 V4]; subst. inversion V4; subst.
    rewrite (amp_two a s s' St Su Hb), (amp_two a s s' Si Sw Hb).
    transitivity (nsum k (fun c => nsum m (fun x => elt iso [a; s; c] *! elt rest [c; x] *! elt u [x; s'; b]))).
    - rewrite nsum_swap. apply nsum_ext. intros x Hx. rewrite <- (P a s x Ha V1 Hx), <- nsum_mul_r. reflexivity.
    - transitivity (nsum k (fun c => elt iso [a; s; c] *! elt w [c; s'; b])); [|ring].
      apply nsum_ext. intros c Hc. rewrite (W c s' b Hc V3 Hb), <- nsum_mul_l. apply nsum_ext. intros x Hx. ring.
  Qed.
  Lemma pair_left (t u iso rest w : tensor) l d k e m r : shape u = [l; d; m] -> shape t = [m; e; r] -> shape iso = [k; e; r] ->
    shape w = [l; d; k] ->
    (forall a s b, a < m -> s < e -> b < r -> nsum k (fun c => elt rest [a; c] *! elt iso [c; s; b]) = elt t [a; s; b]) ->
    (forall i s j, i < l -> s < d -> j < k -> elt w [i; s; j] = nsum m (fun c => elt u [i; s; c] *! elt rest [c; j])) ->
    scaled l r r1 [u; t] [w; iso].
  Proof.
    intros Su St Si Sw P W. split; [unfold phys; cbn; rewrite St, Su, Si, Sw; reflexivity|].
    intros a sg b Ha Hb V. unfold phys in V. cbn in V. rewrite St, Su in V. cbn in V.
    inversion V as [|s ? sg1 ? V1 V2]; subst. inversion V2 as [|s' ? sg2 ? V3 V4]; subst. inversion V4; subst.
    rewrite (amp_two a s s' Su St Hb), (amp_two a s s' Sw Si Hb).
    transitivity (nsum k (fun c => nsum m (fun x => elt u [a; s; x] *! elt rest [x; c] *! elt iso [c; s'; b]))).
    - rewrite nsum_swap. apply nsum_ext. intros x Hx. rewrite <- (P x s' b Hx V3 Hb), <- nsum_mul_l. apply nsum_ext. intros c Hc. ring.
    - transitivity (nsum k (fun c => elt w [a; s; c] *! elt iso [c; s'; b])); [|ring].
      apply nsum_ext. intros c Hc. rewrite (W a s c Ha V1 Hc), <- nsum_mul_r. apply nsum_ext. intros x Hx. ring.
  Qed.

  (** what is needed for the state to be kept *)
  Definition keeps l r (ts : list tensor) : Prop :=
    exact D err /\ (normalize = true -> nonzero l r ts /\ norm_ok nrm /\ div_ok rdiv).
  Definition factor (z : R) : R := if normalize then z else r1.
  Definition out (w : tensor) (z : R) : tensor := if normalize then tdiv rdiv w z else w.
  Lemma out_shape w z : shape (out w z) = shape w.
  Proof. unfold out. destruct normalize; reflexivity. Qed.

  Lemma move_right_spec l r (ts ts' : list tensor) n z : chain l ts r -> move_right ts n = Ok (ts', z) ->
    exists p t u q iso w, ts = p ++ t :: u :: q /\ length p = n /\ ts' = p ++ iso :: out w z :: q /\ z = nrm w /\
      chain l ts' r /\ phys ts' = phys ts /\ left_iso iso /\
      (keeps l r ts -> scaled l r (factor z) ts ts').
  Proof.
    intros C H. unfold Mps.move_right, get in H.
    destruct (nth_error ts n) as [t|] eqn:Et; try discriminate. cbn [rbind] in H.
    destruct (split_right ts n t) as [[iso rest]| |] eqn:F; try discriminate. cbn [rbind] in H.
    destruct (nth_error_split3 Et) as (p & q0 & -> & Lp). rewrite <- Lp, set_nth_app in H.
    rewrite nth_error_app2 in H by lia. replace (length p + 1 - length p) with 1 in H by lia. cbn [nth_error] in H.
    destruct q0 as [|u q]; cbn in H; try discriminate.
    destruct (proj1 (chain_app _ _ l r) C) as (m & Cp & (d & m2 & St & (e & m3 & Su & Cq))).
    destruct (split_right_spec St F) as (k & Si & Sr & I & P).
    destruct (@ncon_mt R iter iter_perm rest u k m2 e m3 Sr Su) as (w & W1 & Sw & W). rewrite W1 in H. cbn [rbind] in H.
    injection H as H1 H2. replace (length p + 1) with (length (p ++ [iso])) in H1 by (rewrite app_length; reflexivity).
    change (iso :: u :: q) with ([iso] ++ u :: q) in H1. rewrite app_assoc, set_nth_app, <- app_assoc in H1. cbn [app] in H1.
    exists p, t, u, q, iso, w. split; [reflexivity|]. split; [exact Lp|]. rewrite H2 in H1. fold (out w z) in H1.
    split; [symmetry; exact H1|]. split; [symmetry; exact H2|].
    assert (chain l ts' r) as C'.
    { rewrite <- H1. apply chain_app. exists m. split; [exact Cp|]. exists d, k. split; [exact Si|]. exists e, m3.
      rewrite out_shape. split; [exact Sw | exact Cq]. }
    assert (phys ts' = phys (p ++ t :: u :: q)) as PH.
    { rewrite <- H1. unfold phys. rewrite !map_app. cbn [map]. rewrite out_shape, St, Su, Si, Sw. reflexivity. }
    split; [exact C'|]. split; [exact PH|]. split; [exact I|].
    intros [X N]. pose proof (pair_right St Su Si Sw (P X) W) as SC.
    assert (scaled l r r1 (p ++ [t; u] ++ q) (p ++ [iso; w] ++ q)) as SC1.
    { apply (@scaled_context R p [t; u] [iso; w] q l m m3 r r1); auto.
      - exists d, m2. split; [exact St|]. exists e, m3. split; [exact Su | reflexivity].
      - exists d, k. split; [exact Si|]. exists e, m3. split; [exact Sw | reflexivity]. }
    unfold factor. rewrite <- H1. unfold out. destruct normalize; [|exact SC1].
    destruct (N eq_refl) as (N1 & N2 & N3).
    assert (chain m [iso; w] m3) as Cw by (exists d, k; split; [exact Si|]; exists e, m3; split; [exact Sw | reflexivity]).
    assert (z <> r0) as Nz.
    { intros Z. assert (zero_t w) as ZW by (intros ix V; apply (N2 w); [congruence | exact V]).
      apply (scaled_nonzero SC1) in N1. revert N1. apply (@scaled_zero R l r _ (p ++ [iso; w] ++ q)).
      apply (@scaled_context R p [iso; w] [iso; w] q l m m3 r r0); auto. apply (zero_last Si Sw ZW). }
    replace z with (r1 *! z) at 1 by ring. eapply scaled_trans; [exact SC1|].
    apply (@scaled_context R p [iso; w] [iso; tdiv rdiv w z] q l m m3 r z); auto.
    apply (@tdiv_last R rdiv iso w m d k e m3 z N3 Si Sw Nz).
  Qed.

  Lemma move_left_spec l r (ts ts' : list tensor) n z : 0 < n -> chain l ts r -> move_left ts n = Ok (ts', z) ->
    exists p t u q iso w, ts = p ++ u :: t :: q /\ length p + 1 = n /\ ts' = p ++ out w z :: iso :: q /\ z = nrm w /\
      chain l ts' r /\ phys ts' = phys ts /\ right_iso iso /\
      (keeps l r ts -> scaled l r (factor z) ts ts').
  Proof.
    intros Hn C H. unfold Mps.move_left, get in H.
    destruct (nth_error ts n) as [t|] eqn:Et; try discriminate. cbn [rbind] in H.
    destruct (split_left ts n t) as [[rest iso]| |] eqn:F; try discriminate. cbn [rbind] in H.
    destruct (nth_error ts (n - 1)) as [u|] eqn:Eu.
    2: { exfalso. apply nth_error_None in Eu. assert (n < length ts) by (apply nth_error_Some; congruence). lia. }
    destruct (@nth_error_split4 _ ts (n - 1) u t Eu) as (p & q & -> & Lp). { replace (n - 1 + 1) with n by lia. exact Et. }
    assert (n = length (p ++ [u])) as Ln by (rewrite app_length; cbn; lia).
    assert (set_nth n iso (p ++ u :: t :: q) = p ++ u :: iso :: q) as E1.
    { rewrite Ln. change (u :: t :: q) with ([u] ++ t :: q). rewrite app_assoc, set_nth_app, <- app_assoc. reflexivity. }
    rewrite E1 in H. rewrite <- Lp in H. rewrite nth_error_app2, Nat.sub_diag in H by lia. cbn [nth_error rbind] in H.
    destruct (proj1 (chain_app _ _ l r) C) as (m & Cp & (d & m2 & Su & (e & m3 & St & Cq))).
    destruct (split_left_spec St F) as (k & Si & Sr & I & P).
    destruct (@ncon_tm R iter iter_perm u rest m d m2 k Su Sr) as (w & W1 & Sw & W). rewrite W1 in H. cbn [rbind] in H.
    injection H as H1 H2. rewrite set_nth_app in H1.
    exists p, t, u, q, iso, w. split; [reflexivity|]. split; [lia|]. rewrite H2 in H1. fold (out w z) in H1.
    split; [symmetry; exact H1|]. split; [symmetry; exact H2|].
    assert (chain l ts' r) as C'.
    { rewrite <- H1. apply chain_app. exists m. split; [exact Cp|]. exists d, k. rewrite out_shape. split; [exact Sw|]. exists e, m3.
      split; [exact Si | exact Cq]. }
    assert (phys ts' = phys (p ++ u :: t :: q)) as PH.
    { rewrite <- H1. unfold phys. rewrite !map_app. cbn [map]. rewrite out_shape, St, Su, Si, Sw. reflexivity. }
    split; [exact C'|]. split; [exact PH|]. split; [exact I|].
    intros [X N]. pose proof (pair_left Su St Si Sw (P X) W) as SC.
    assert (chain m [w; iso] m3) as Cw by (exists d, k; split; [exact Sw|]; exists e, m3; split; [exact Si | reflexivity]).
    assert (scaled l r r1 (p ++ [u; t] ++ q) (p ++ [w; iso] ++ q)) as SC1.
    { apply (@scaled_context R p [u; t] [w; iso] q l m m3 r r1); auto.
      exists d, m2. split; [exact Su|]. exists e, m3. split; [exact St | reflexivity]. }
    unfold factor. rewrite <- H1. unfold out. destruct normalize; [|exact SC1].
    destruct (N eq_refl) as (N1 & N2 & N3).
    assert (z <> r0) as Nz.
    { intros Z. assert (zero_t w) as ZW by (intros ix V; apply (N2 w); [congruence | exact V]).
      apply (scaled_nonzero SC1) in N1. revert N1. apply (@scaled_zero R l r _ (p ++ [w; iso] ++ q)).
      apply (@scaled_context R p [w; iso] [w; iso] q l m m3 r r0); auto. apply (zero_first Sw Si ZW). }
    replace z with (r1 *! z) at 1 by ring. eapply scaled_trans; [exact SC1|].
    apply (@scaled_context R p [w; iso] [tdiv rdiv w z; iso] q l m m3 r z); auto.
    apply (@tdiv_first R rdiv iso w m d k e m3 z N3 Sw Si Nz).
  Qed.

  Definition left_upto (ts : list tensor) (c : nat) : Prop := forall i t, nth_error ts i = Some t -> i < c -> left_iso t.
  Definition right_from (ts : list tensor) (c : nat) : Prop := forall i t, nth_error ts i = Some t -> c < i -> right_iso t.
  Lemma canonical_split ts c : canonical ts c <-> left_upto ts c /\ right_from ts c.
  Proof.
    split.
    - intros H. split; intros i t Hi L; destruct (H i t Hi); auto.
    - intros [H1 H2] i t Hi. split; [apply H1, Hi | apply H2, Hi].
  Qed.
  Lemma left_upto_mono ts c c' : c' <= c -> left_upto ts c -> left_upto ts c'.
  Proof. intros L H i t Hi Hc. apply (H i t Hi). lia. Qed.
  Lemma right_from_mono ts c c' : c <= c' -> right_from ts c -> right_from ts c'.
  Proof. intros L H i t Hi Hc. apply (H i t Hi). lia. Qed.
  Lemma keeps_next l r ts ts' k : keeps l r ts -> scaled l r k ts ts' -> keeps l r ts'.
  Proof.
    intros [X N] S. split; [exact X|]. intros Hn. destruct (N Hn) as (N1 & N2 & N3). split; [|auto]. exact (scaled_nonzero S N1).
  Qed.

  Lemma last_cons A (l : list A) : forall x d, last (x :: l) d = last l x.
  Proof. induction l as [|y l IH]; intros x d; [reflexivity|]. change (last (x :: y :: l) d) with (last (y :: l) d). rewrite !IH. reflexivity. Qed.

  Lemma right_sweep l r k : forall c ts ts' z0 z, chain l ts r -> loop move_right (seq c k) ts z0 = Ok (ts', z) ->
    chain l ts' r /\ phys ts' = phys ts /\ (left_upto ts c -> left_upto ts' (c + k)) /\
    (forall i, c + k < i -> nth_error ts' i = nth_error ts i) /\
    (exists zs, length zs = k /\ last zs z0 = z /\ (keeps l r ts -> scaled l r (lprod zs factor) ts ts')) /\
    (0 < k -> exists w, nth_error ts' (c + k) = Some (out w z) /\ z = nrm w).
  Proof.
    induction k as [|k IH]; intros c ts ts' z0 z C H; cbn [seq loop] in H.
    - injection H as <- <-. rewrite Nat.add_0_r. repeat split; auto.
      + exists []. split; [reflexivity|]. split; [reflexivity|]. intros _. apply scaled_refl.
      + lia.
    - destruct (move_right ts c) as [[ts1 z1]| |] eqn:F; try discriminate. cbn [rbind] in H.
      destruct (move_right_spec C F) as (p & t & u & q & iso & w & E1 & Lp & E2 & Ez & C1 & P1 & I & K).
      destruct (IH (S c) ts1 ts' z1 z C1 H) as (C' & P' & L' & N' & (zs & Lz & La & Kz) & W').
      replace (S c + k) with (c + S k) in * by lia.
      split; [exact C'|]. split; [congruence|]. split; [|split; [|split]].
      + intros U. apply L'. intros i x Hi Hc. rewrite E2 in Hi. destruct (Nat.eq_dec i c) as [->|Ne].
        * rewrite nth_error_app2 in Hi by lia. rewrite <- Lp, Nat.sub_diag in Hi. cbn in Hi. injection Hi as <-. exact I.
        * apply (U i x); [|lia]. rewrite E1. rewrite nth_error_app1 in Hi |- * by lia. exact Hi.
      + intros i Hi. rewrite (N' i Hi), E1, E2. rewrite !nth_error_app2 by lia.
        destruct (i - length p) as [|[|j]] eqn:Ej; [lia | lia | reflexivity].
      + exists (z1 :: zs). split; [cbn; lia|]. split.
        * rewrite last_cons. exact La.
        * intros HK. rewrite lprod_cons. eapply scaled_trans; [exact (K HK)|]. apply Kz. exact (keeps_next HK (K HK)).
      + intros _. destruct k as [|k]; [|apply W'; lia]. cbn in H. injection H as -> ->. exists w. split; [|exact Ez].
        rewrite E2, nth_error_app2 by lia. replace (c + 1 - length p) with 1 by lia. reflexivity.
  Qed.

  Lemma rev_seq_S a k : rev (seq a (S k)) = (a + k) :: rev (seq a k).
  Proof. rewrite seq_S, rev_app_distr. reflexivity. Qed.

  Lemma left_sweep l r s k : forall ts ts' z0 z, chain l ts r -> loop move_left (rev (seq (s + 1) k)) ts z0 = Ok (ts', z) ->
    chain l ts' r /\ phys ts' = phys ts /\ (right_from ts (s + k) -> right_from ts' s) /\
    (forall i, i < s -> nth_error ts' i = nth_error ts i) /\
    (exists zs, length zs = k /\ last zs z0 = z /\ (keeps l r ts -> scaled l r (lprod zs factor) ts ts')) /\
    (0 < k -> exists w, nth_error ts' s = Some (out w z) /\ z = nrm w).
  Proof.
    induction k as [|k IH]; intros ts ts' z0 z C H.
    - cbn in H. injection H as <- <-. rewrite Nat.add_0_r. repeat split; auto.
      + exists []. split; [reflexivity|]. split; [reflexivity|]. intros _. apply scaled_refl.
      + lia.
    - rewrite rev_seq_S in H. cbn [loop] in H.
      destruct (move_left ts (s + 1 + k)) as [[ts1 z1]| |] eqn:F; try discriminate. cbn [rbind] in H.
      assert (0 < s + 1 + k) as Pos by lia.
      destruct (move_left_spec Pos C F) as (p & t & u & q & iso & w & E1 & Lp & E2 & Ez & C1 & P1 & I & K).
      destruct (IH ts1 ts' z1 z C1 H) as (C' & P' & L' & N' & (zs & Lz & La & Kz) & W').
      split; [exact C'|]. split; [congruence|]. split; [|split; [|split]].
      + intros U. apply L'. intros i x Hi Hc. rewrite E2 in Hi. rewrite nth_error_app2 in Hi by lia.
        destruct (i - length p) as [|[|j]] eqn:Ej; [lia | cbn in Hi; injection Hi as <-; exact I |].
        apply (U i x); [|lia]. rewrite E1, nth_error_app2, Ej by lia. exact Hi.
      + intros i Hi. rewrite (N' i Hi), E1, E2. rewrite !nth_error_app1 by lia. reflexivity.
      + exists (z1 :: zs). split; [cbn; lia|]. split.
        * rewrite last_cons. exact La.
        * intros HK. rewrite lprod_cons. eapply scaled_trans; [exact (K HK)|]. apply Kz. exact (keeps_next HK (K HK)).
      + intros _. destruct k as [|k]; [|apply W'; lia]. cbn in H. injection H as -> ->. exists w. split; [|exact Ez].
        rewrite E2, nth_error_app2 by lia. replace (s - length p) with 0 by lia. reflexivity.
  Qed.

  Notation position := (position iter qrf svdf nkeep err_ge1 nrm rdiv normalize D err).

  Lemma position_spec l r (m m' : mps R) site z c : chain l (tens m) r -> centre m = Some c -> position m site = Ok (m', z) ->
    exists s, site = Z.of_nat s /\ s < length (tens m) /\ centre m' = Some s /\
    chain l (tens m') r /\ phys (tens m') = phys (tens m) /\
    (left_upto (tens m) (Nat.min c s) -> left_upto (tens m') s) /\ (right_from (tens m) (Nat.max c s) -> right_from (tens m') s) /\
    (exists zs, length zs = Nat.max 1 (Nat.max c s - Nat.min c s) /\ last zs r0 = z /\
       (keeps l r (tens m) -> scaled l r (lprod zs factor) (tens m) (tens m'))) /\
    (exists w, nth_error (tens m') s = Some (out w z) /\ z = nrm w).
  Proof.
    intros C Hc H. unfold Mps.position in H. rewrite Hc in H. unfold guard in H.
    destruct (match err with Some e => negb (err_ge1 e) | None => true end); [|discriminate].
    destruct (negb ((Z.of_nat (length (tens m)) <=? site) || (site <? 0))%Z) eqn:G; [|discriminate].
    apply Bool.negb_true_iff, Bool.orb_false_iff in G as [G1 G2]. apply Z.leb_gt in G1. apply Z.ltb_ge in G2.
    set (s := Z.to_nat site) in *. exists s. split; [unfold s; lia|]. split; [unfold s; lia|].
    assert (Z.of_nat s = site) as Es by (unfold s; lia). clearbody s.
    destruct (s =? c) eqn:E1; [apply Nat.eqb_eq in E1; subst s | apply Nat.eqb_neq in E1; destruct (c <? s) eqn:E2].
    - unfold get in H. destruct (nth_error (tens m) c) as [t|] eqn:Et; [|discriminate]. cbn [rbind] in H. injection H as <- <-. cbn [tens centre].
      rewrite Nat.min_id, Nat.max_id, Nat.sub_diag. destruct (nth_error_split3 Et) as (p & q & Em & Lp).
      assert ((if normalize then set_nth c (tdiv rdiv t (nrm t)) (tens m) else tens m) = p ++ out t (nrm t) :: q) as EQ.
      { unfold out. destruct normalize; [|exact Em]. rewrite Em, <- Lp, set_nth_app. reflexivity. }
      rewrite EQ, Em in *. clear EQ. destruct (proj1 (chain_app _ _ l r) C) as (mm & Cp & (d & m2 & St & Cq)).
      split; [reflexivity|]. split; [|split; [|split; [|split; [|split]]]].
      + apply chain_app. exists mm. split; [exact Cp|]. exists d, m2. rewrite out_shape. auto.
      + unfold phys. rewrite !map_app. cbn [map]. rewrite out_shape. reflexivity.
      + intros U i x Hi Hlt. apply (U i x); [|exact Hlt]. rewrite nth_error_app1 in Hi |- * by lia. exact Hi.
      + intros U i x Hi Hlt. apply (U i x); [|exact Hlt]. rewrite nth_error_app2 in Hi |- * by lia.
        destruct (i - length p) eqn:Ei; [lia | exact Hi].
      + exists [nrm t]. split; [reflexivity|]. split; [reflexivity|]. intros [X N].
        replace (lprod [nrm t] factor) with (factor (nrm t)) by (cbn; ring).
        unfold factor, out. destruct normalize; [|apply scaled_refl]. destruct (N eq_refl) as (N1 & N2 & N3).
        assert (chain mm [t] m2) as Ct by (exists d, m2; split; [exact St | reflexivity]).
        assert (nrm t <> r0) as Nz.
        { intros Z. assert (zero_t t) as ZW by (intros ix V; apply (N2 t); [congruence | exact V]).
          revert N1. apply (@scaled_zero R l r _ (p ++ [t] ++ q)).
          apply (@scaled_context R p [t] [t] q l mm m2 r r0); auto. apply (zero_only St ZW). }
        apply (@scaled_context R p [t] [tdiv rdiv t (nrm t)] q l mm m2 r (nrm t)); auto.
        apply (@tdiv_only R rdiv t mm d m2 (nrm t) N3 St Nz).
      + exists t. split; [|reflexivity]. rewrite nth_error_app2 by lia. replace (c - length p) with 0 by lia. reflexivity.
    - apply Nat.ltb_lt in E2. destruct (loop move_right (seq c (s - c)) (tens m) r0) as [[ts z']| |] eqn:F; [|discriminate|discriminate].
      cbn [rbind] in H. injection H as <- <-. cbn [tens centre].
      destruct (right_sweep C F) as (C' & P' & L' & N' & (zs & Lz & La & Kz) & W').
      replace (c + (s - c)) with s in * by lia. rewrite Nat.min_l, Nat.max_r by lia.
      split; [reflexivity|]. split; [exact C'|]. split; [exact P'|]. split; [exact L'|]. split; [|split].
      + intros U i x Hi Hlt. apply (U i x); [|exact Hlt]. rewrite <- (N' i Hlt). exact Hi.
      + exists zs. split; [rewrite Lz; lia|]. split; [exact La | exact Kz].
      + apply W'. lia.
    - apply Nat.ltb_ge in E2. destruct (loop move_left (rev (seq (s + 1) (c - s))) (tens m) r0) as [[ts z']| |] eqn:F; [|discriminate|discriminate].
      cbn [rbind] in H. injection H as <- <-. cbn [tens centre].
      destruct (left_sweep C F) as (C' & P' & L' & N' & (zs & Lz & La & Kz) & W').
      replace (s + (c - s)) with c in * by lia. rewrite Nat.min_r, Nat.max_l by lia.
      split; [reflexivity|]. split; [exact C'|]. split; [exact P'|]. split; [|split; [exact L'|split]].
      + intros U i x Hi Hlt. apply (U i x); [|exact Hlt]. rewrite <- (N' i Hlt). exact Hi.
      + exists zs. split; [rewrite Lz; lia|]. split; [exact La | exact Kz].
      + apply W'. lia.
  Qed.
End Position.
