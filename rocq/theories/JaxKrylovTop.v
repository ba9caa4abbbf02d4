(** * JaxKrylovTop: the statements of C51 from the invariants *)
From Coq Require Import Field Permutation.
From Verif Require Import Prelude Algebra Krylov KrylovFacts KrylovSpec Gmres GmresSpec GmresFacts GmresMain
  JaxKrylov JaxKrylovSpec JaxKrylovFacts JaxKrylovArn JaxKrylovShift JaxKrylovSort JaxKrylovMain JaxKrylovOuter JaxKrylovFinal.
Set Implicit Arguments.
Unset Strict Implicit.

Section Top.
  Context {K : cfd} {V : ips K}.
  Add Field Kf : (cfth K).
  Variable A : V -> V.

  Lemma fact_of N tol v0 Vm H residual norm it f : linear A -> it <= N -> (it = N \/ clt tol norm = false) ->
    (0 < it -> exists c, c <> r0 /\ nth 0 Vm vz = vs c v0) -> ainv A N 0 tol it Vm H residual norm f ->
    fact_spec A N tol v0 Vm H residual norm it (clt norm tol).
  Proof.
    intros Hlin Hit Hor Hf I. split; [exact (ai_len I)|]. split; [exact Hit|]. split; [exact Hor|]. split; [reflexivity|].
    pose proof (ai_len I) as L. split.
    - destruct it as [|it].
      + intros x. replace (krylov A v0 0) with (firstn 0 Vm) by reflexivity. reflexivity.
      + destruct (Hf ltac:(lia)) as (c & Hc & Ev). eapply fac_span; [exact Hlin|lia|exact (ai_fac I)| |exact Hc|intros _; exact Ev].
        intros j Hj. apply (ai_nz I); lia.
    - exists f. split; [apply fac_arnoldi; [lia|exact (ai_fac I)]|]. split; [exact (rs_norm (ai_res I))|].
      split; [intros C; exact (proj2 (rs_unit (ai_res I) C))|exact (rs_zero (ai_res I))].
  Qed.
  Lemma arnoldi_top v0 N tol Vm H residual norm it conv : linear A ->
    arnoldi_fact A v0 (repeat vz N) (mkmx N N (fun _ _ => r0)) 0 N tol = Val (Vm, H, residual, norm, it, conv) ->
    fact_spec A N tol v0 Vm H residual norm it conv.
  Proof.
    intros Hlin E. destruct (arnoldi_fact_inv (repeat_length vz N) (square_mkmx N (fun _ _ => r0)) (Nat.le_0_l N) (fac0 A (repeat vz N) (mkmx N N (fun _ _ => r0)) v0) E)
      as (I1 & I2 & -> & I4 & I5 & I6 & _ & f & I).
    exact (fact_of Hlin I2 I4 (I6 eq_refl) I).
  Qed.
  Lemma lanczos_top v0 N tol Vm al be residual norm it conv : hermitian A ->
    lanczos_fact A v0 (repeat vz N) (repeat r0 N) (repeat r0 (N - 1)) 0 N tol = Val (Vm, al, be, residual, norm, it, conv) ->
    fact_spec A N tol v0 Vm (hmat al be) residual norm it conv.
  Proof.
    intros herm E. destruct (lanczos_fact_inv herm (repeat_length vz N) (repeat_length r0 N) (repeat_length r0 (N - 1)) (Nat.le_0_l N) (fac0 A (repeat vz N) (hmat (repeat r0 N) (repeat r0 (N - 1))) v0) E)
      as (I1 & I2 & -> & I4 & I5 & I6 & _ & f & I).
    exact (fact_of (hermitian_linear herm) I2 I4 (I6 eq_refl) (la_inv I)).
  Qed.
  Lemma arnoldi_to_fac n (Vm : list V) H f : n <= length Vm -> arnoldi_fac A (firstn n Vm) H f -> (forall i j, n <= i -> j < n -> ent H i j = r0) ->
    fac A n (vat Vm) (ent H) f.
  Proof.
    intros Hn [F1 F2 F3 F4] Z. assert (L : length (firstn n Vm) = n) by (rewrite firstn_length; lia).
    unfold orthonormal in F1. rewrite L in F1, F2, F3, F4. constructor.
    - intros i j Hi Hj. rewrite <- (@firstn_nth _ Vm n i vz Hi), <- (@firstn_nth _ Vm n j vz Hj). apply F1; assumption.
    - intros j Hj. rewrite <- (@firstn_nth _ Vm n j vz Hj), F2 by exact Hj. f_equal. unfold lin. rewrite L. apply vsum_ext. intros i Hi.
      rewrite firstn_nth by exact Hi. reflexivity.
    - intros i Hi. rewrite <- (@firstn_nth _ Vm n i vz Hi). apply F3, Hi.
    - intros i j Hj Hij. destruct (Nat.lt_ge_cases i n); [apply F4; assumption|apply Z; assumption].
  Qed.
  Lemma continue_top v0 N tol Vm H start Vm' H' residual norm it conv :
    length Vm = N -> square N H -> start <= N -> arnoldi_fac A (firstn start Vm) H v0 ->
    (forall i j, start <= i -> j < start -> ent H i j = r0) ->
    arnoldi_fact A v0 Vm H start N tol = Val (Vm', H', residual, norm, it, conv) ->
    start <= it /\ it <= N /\ firstn start Vm' = firstn start Vm /\ (it = N \/ clt tol norm = false) /\
    exists f, arnoldi_fac A (firstn it Vm') H' f /\ csqrt (ip f f) = Some norm /\ (clt tol norm = true -> f = vs norm residual).
  Proof.
    intros L Sq Hs F Z E. assert (Hs' : start <= length Vm) by lia.
    destruct (arnoldi_fact_inv L Sq Hs (arnoldi_to_fac Hs' F Z) E) as (I1 & I2 & _ & I4 & I5 & _ & _ & f & I).
    pose proof (ai_len I) as L'.
    split; [exact I1|]. split; [exact I2|]. split; [|split; [exact I4|]].
    - apply (@nth_ext _ _ _ vz vz); [rewrite !firstn_length; lia|]. intros i Hi. rewrite firstn_length in Hi. rewrite !firstn_nth by lia. apply I5. lia.
    - exists f. split; [apply fac_arnoldi; [lia|exact (ai_fac I)]|]. split; [exact (rs_norm (ai_res I))|]. intros C. exact (proj2 (rs_unit (ai_res I) C)).
  Qed.
  Lemma shifted_top qr n numeig Vm Hm fm shifts Vk Hk fk : linear A -> qr_contract qr ->
    length Vm = n -> square n Hm -> arnoldi_fac A Vm Hm fm -> 0 < numeig -> numeig < n -> length shifts = n - numeig ->
    shifted_qr qr Vm Hm fm shifts numeig = Val (Vk, Hk, fk) ->
    arnoldi_fac A (firstn numeig Vk) Hk fk /\ orthonormal Vk /\ exists c, filter_ A shifts (nth 0 Vm vz) = vs c (nth 0 Vk vz).
  Proof.
    intros Hlin Hqr L Sq F H0 Hn Ls E.
    assert (F' : fac A n (vat Vm) (ent Hm) fm).
    { apply arnoldi_to_fac; [lia|rewrite firstn_all2 by lia; exact F|]. intros i j Hi _. exact (ent_row_over j Sq Hi). }
    destruct (shifted_qr_ok Hlin Hqr L Sq F' H0 Hn Ls E) as (L1 & S1 & F1 & P1 & O1).
    split; [apply fac_arnoldi; [lia|exact F1]|]. split; [|exact P1]. intros i j Hi Hj. rewrite L1 in Hi, Hj. apply O1; assumption.
  Qed.
  Lemma reject_top qr eig eps ncv numeig which tol size maxiter init :
    (ncv < numeig \/ size < ncv \/ which = LA \/ which = SA -> jax_eigs A qr eig eps ncv numeig which tol size maxiter init = Err) /\
    (ncv < numeig \/ size < numeig \/ which = LR \/ (ncv = numeig /\ numeig < size) ->
       jax_eigsh A qr eig eps ncv numeig which tol size maxiter init = Err).
  Proof.
    split; intros H.
    - unfold jax_eigs, ir_arnoldi. destruct H as [H|[H|[->| ->]]]; try reflexivity.
      + replace (ncv <? numeig) with true by (symmetry; apply Nat.ltb_lt; exact H). destruct which; reflexivity.
      + replace (ncv <=? size) with false by (symmetry; apply Nat.leb_gt; exact H). rewrite andb_false_r. cbn [negb].
        destruct which; try reflexivity; destruct (ncv <? numeig); reflexivity.
    - unfold jax_eigsh, ir_lanczos. destruct H as [H|[H|[->|[-> H]]]]; try reflexivity.
      + replace (ncv <? numeig) with true by (symmetry; apply Nat.ltb_lt; exact H). destruct which; reflexivity.
      + replace (size <? numeig) with true by (symmetry; apply Nat.ltb_lt; exact H).
        destruct which; try reflexivity; destruct (ncv <? numeig); try reflexivity; destruct ((ncv <=? numeig) && (numeig <? size)); reflexivity.
      + rewrite Nat.leb_refl. replace (numeig <? size) with true by (symmetry; apply Nat.ltb_lt; exact H).
        destruct which; try reflexivity; destruct (numeig <? numeig); reflexivity.
  Qed.
End Top.
Lemma sort_top (K : cfd) which p (ev : list K) :
  Permutation (seq 0 (length ev)) (sort_inds which ev) /\
  (sortable which ev -> forall i j, i < j -> j < length ev -> before which (nth (nth i (sort_inds which ev) 0) ev r0) (nth (nth j (sort_inds which ev) 0) ev r0)) /\
  (0 < p -> p <= length ev -> sort_shifts which p ev = skipn (length ev - p) (map (fun i => nth i ev r0) (sort_inds which ev))).
Proof.
  split; [apply sort_inds_perm|]. split; [intros S i j; apply sort_inds_sorted; exact S|]. intros H0 Hp.
  unfold sort_shifts, last_p. destruct (Nat.eqb_spec p 0); [lia|]. rewrite map_length, sort_inds_length. reflexivity.
Qed.
