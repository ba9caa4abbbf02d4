(** * MpsCheckFacts: [check_orthonormality] and [check_canonical] measure the distance from canonical form *)
From Coq Require Import List ZArith Lia Permutation Sorting.Sorted.
From Verif Require Import Prelude Res Algebra Tensor TensorFacts Einsum Ncon NconFacts NconSpec NconTop NconCheck NconMain
  BlockSparse Backends Mps MpsSpec MpsNcon MpsEnv MpsInf MpsCheck MpsCheckSpec.
Import ListNotations.
Set Implicit Arguments.
Unset Strict Implicit.
Local Open Scope nat_scope.
Local Open Scope csr_scope.

Section CheckFacts.
  Context {R : cjr}.
  Add Ring Rring : (rsr R).
  Variable iter : list Z -> list Z.
  Hypothesis iter_perm : forall l, Permutation (iter l) l.
  Variable sub : R -> R -> R.
  Variable sqrtf : R -> R.
  Notation tensor := (Tensor.tensor R).
  Notation ncon_z := (@ncon_z R iter).

  Lemma ncon_frob (x y : tensor) m n : shape x = [m; n] -> shape y = [m; n] ->
    exists t, ncon_z [x; y] [[1; 2]; [1; 2]]%Z = Ok t /\ shape t = [] /\
      elt t [] = nsum m (fun i => nsum n (fun j => elt x [i; j] *! elt y [i; j])).
  Proof.
    intros Hx Hy.
    assert (forall l, In l (List.concat (map (map LInt) [[1; 2]; [1; 2]]%Z)) -> label_ok l) as LAB.
    { intros ? Hll; cbn in Hll; repeat (destruct Hll as [<- | Hll]); try contradiction; apply label_ok_spec; repeat split; discriminate. }
    destruct (@ncon_z_value R iter iter_perm (asn [(1%Z, m); (2%Z, n)]) [x; y] [[1; 2]; [1; 2]]%Z [] (map LInt [1; 2]%Z)) as (t & E & S0 & V).
    - split; [reflexivity|]; intros ? Hxx; cbn in Hxx; repeat (destruct Hxx as [<- | Hxx]); try contradiction;
        unfold fits; cbn; assumption.
    - intros ? Hll; cbn in Hll; repeat (destruct Hll as [<- | Hll]); try contradiction;
       right; (split; [apply is_out_not|]; reflexivity).
    - discriminate.
    - exact LAB.
    - apply check_con_spec; [exact LAB | reflexivity].
    - split; [apply check_out_spec; [exact LAB | reflexivity]|]; repeat constructor; discriminate.
    - exists t. split; [exact E|]. split; [exact S0|].
      pose proof (V (asn [])) as H. cbn -[nsum] in H. rewrite H; [|intros ? []].
      repeat (apply nsum_ext; intros); unfold lprod; cbn; unfold fval, upd; cbn; ring.
  Qed.

  Lemma frob_check (y : tensor) k (f : nat -> nat -> R) : shape y = [k; k] ->
    (forall i j, i < k -> j < k -> elt y [i; j] = f i j) ->
    rbind (ncon_z [sub_eye sub y; conj_t (sub_eye sub y)] [[1; 2]; [1; 2]]%Z) (fun s => Ok (sqrtf (elt s [])))
    = Ok (sqrtf (nsum k (fun i => nsum k (fun j => sqabs (sub (f i j) (delta i j)))))).
  Proof.
    intros S V. destruct (@ncon_frob (sub_eye sub y) (conj_t (sub_eye sub y)) k k) as (t & E & _ & Et); [exact S|exact S|].
    rewrite E. cbn [rbind]. rewrite Et. do 2 f_equal. apply nsum_ext. intros i Hi. apply nsum_ext. intros j Hj.
    unfold sub_eye, conj_t, sqabs, delta. cbn [elt nth]. rewrite (V i j Hi Hj). reflexivity.
  Qed.

  Lemma check_left (m : imps R) site (t : tensor) l d k : tensor_at iter m site = Ok t -> shape t = [l; d; k] ->
    check_orthonormality iter sub sqrtf m DLeft site = Ok (sqrtf (left_distance sub t)).
  Proof.
    intros E S. unfold check_orthonormality. rewrite E. cbn [rbind]. rewrite con_ok by reflexivity. cbn [rbind].
    destruct (@td_close_l R t (conj_t t) l d k k S S) as [S2 V].
    rewrite (frob_check S2 (fun i j _ _ => V i j)). unfold left_distance. rewrite S. reflexivity.
  Qed.
  Lemma check_right (m : imps R) site (t : tensor) l d k : tensor_at iter m site = Ok t -> shape t = [l; d; k] ->
    check_orthonormality iter sub sqrtf m DRight site = Ok (sqrtf (right_distance sub t)).
  Proof.
    intros E S. unfold check_orthonormality. rewrite E. cbn [rbind]. rewrite con_ok by reflexivity. cbn [rbind].
    destruct (@td_first_l R t (conj_t t) l d k k S S eq_refl) as [S2 V].
    rewrite (frob_check (f := fun i j => nsum d (fun s => nsum k (fun c => elt t [i; s; c] *! cj (elt t [j; s; c])))) S2).
    - unfold right_distance. rewrite S. reflexivity.
    - intros i j _ _. rewrite (V i j). apply nsum_swap.
  Qed.

  (** ** the tensors that are checked *)
  Lemma chain_shape (ts : list tensor) : forall l r i t, chain l ts r -> nth_error ts i = Some t ->
    exists a d k, shape t = [a; d; k].
  Proof.
    induction ts as [|u q IH]; intros l r [|i] t C H; cbn in H; try discriminate; destruct C as (d & k & S & C).
    - injection H as <-. exists l, d, k. exact S.
    - exact (IH _ _ _ _ C H).
  Qed.
  Lemma chain_last (p : list tensor) : forall l (t : tensor) r, chain l (p ++ [t]) r -> exists a d, shape t = [a; d; r] /\ chain l p a.
  Proof.
    induction p as [|u q IH]; intros l t r C; cbn in C.
    - destruct C as (d & k & S & <-). exists l, d. split; [exact S|reflexivity].
    - destruct C as (d & k & S & C). destruct (IH _ _ _ C) as (a & e & S2 & C2). exists a, e. split; [exact S2|]. exists d, k. split; assumption.
  Qed.
  Lemma chain_snoc (p : list tensor) : forall l (t : tensor) a d r, chain l p a -> shape t = [a; d; r] -> chain l (p ++ [t]) r.
  Proof.
    induction p as [|u q IH]; intros l t a d r C S; cbn in *.
    - subst a. exists d, r. split; [exact S|reflexivity].
    - destruct C as (e & k & S2 & C). exists e, k. split; [exact S2|]. exact (IH _ _ _ _ _ C S).
  Qed.

  Lemma absorbed_exists (m : imps R) l r : tens (icell m) <> [] -> chain l (tens (icell m)) r ->
    (forall k, iconn m = Some k -> exists r', shape k = [r; r']) ->
    exists us, absorbed (tens (icell m)) (iconn m) us /\ length us = length (tens (icell m)) /\ (exists r', chain l us r') /\
      forall i u, nth_error us i = Some u -> tensor_at iter m (Z.of_nat i) = Ok u.
  Proof.
    intros Ne C K. unfold tensor_at, get_tensor. unfold absorbed. destruct (iconn m) as [k|].
    - destruct (K k eq_refl) as (r' & Sk). destruct (exists_last Ne) as (p & t & Ep). rewrite Ep in *.
      destruct (@chain_last p l t r C) as (a & d & St & Cp).
      destruct (@ncon_tm R iter iter_perm t k a d r r' St Sk) as (u & Eu & Su & Vu).
      exists (p ++ [u]). repeat split.
      + exists p, t, u. split; [reflexivity|]. split; [reflexivity|]. rewrite St, Sk. cbn [nth]. split; [exact Su|exact Vu].
      + rewrite !app_length. reflexivity.
      + exists r'. exact (chain_snoc Cp Su).
      + intros i v Hv. assert (i < length (p ++ [t])) as L.
        { replace (length (p ++ [t])) with (length (p ++ [u])) by (rewrite !app_length; reflexivity). apply nth_error_Some. congruence. }
        rewrite Nat2Z.id. replace (0 <=? Z.of_nat i)%Z with true by (symmetry; apply Z.leb_le; lia). cbn [guard].
        rewrite (proj2 (Nat.ltb_lt _ _) L). cbn [guard].
        rewrite app_length in L. cbn [length] in L. rewrite app_length. cbn [length].
        unfold get. destruct (Nat.eq_dec i (length p)) as [->|N].
        * rewrite nth_error_app2, Nat.sub_diag in Hv by lia. cbn in Hv. injection Hv as <-.
          rewrite nth_error_app2, Nat.sub_diag by lia. cbn [nth_error rbind].
          replace (length p =? length p + 1 - 1) with true by (symmetry; apply Nat.eqb_eq; lia). exact Eu.
        * rewrite nth_error_app1 in Hv by lia. rewrite nth_error_app1 by lia. rewrite Hv. cbn [rbind].
          replace (i =? length p + 1 - 1) with false by (symmetry; apply Nat.eqb_neq; lia). reflexivity.
    - exists (tens (icell m)). split; [reflexivity|]. split; [reflexivity|]. split; [exists r; exact C|].
      intros i u Hu. assert (i < length (tens (icell m))) as L by (apply nth_error_Some; congruence).
      rewrite Nat2Z.id. replace (0 <=? Z.of_nat i)%Z with true by (symmetry; apply Z.leb_le; lia). cbn [guard].
      rewrite (proj2 (Nat.ltb_lt _ _) L). cbn [guard]. unfold get. rewrite Hu. reflexivity.
  Qed.

  (** ** distances as sums of squared absolute values *)
  Definition left_entries (t : tensor) : list R :=
    let k := nth 2 (shape t) 0 in
    flat_map (fun i => map (fun j => sub (nsum (nth 0 (shape t) 0) (fun a => nsum (nth 1 (shape t) 0) (fun s =>
        elt t [a; s; i] *! cj (elt t [a; s; j])))) (delta i j)) (seq 0 k)) (seq 0 k).
  Definition right_entries (t : tensor) : list R :=
    let k := nth 0 (shape t) 0 in
    flat_map (fun i => map (fun j => sub (nsum (nth 1 (shape t) 0) (fun s => nsum (nth 2 (shape t) 0) (fun c =>
        elt t [i; s; c] *! cj (elt t [j; s; c])))) (delta i j)) (seq 0 k)) (seq 0 k).
  Definition entries_at (c i : nat) (t : tensor) : list R :=
    if i <? c then left_entries t else if c <? i then right_entries t else [].
  Lemma left_sum (t : tensor) : left_distance sub t = lsum (left_entries t) sqabs.
  Proof. unfold left_distance, left_entries, nsum. rewrite lsum_flat_map. apply lsum_ext. intros i _. rewrite lsum_map. reflexivity. Qed.
  Lemma right_sum (t : tensor) : right_distance sub t = lsum (right_entries t) sqabs.
  Proof. unfold right_distance, right_entries, nsum. rewrite lsum_flat_map. apply lsum_ext. intros i _. rewrite lsum_map. reflexivity. Qed.
  Lemma at_sum c i (t : tensor) : distance_at sub c i t = lsum (entries_at c i t) sqabs.
  Proof. unfold distance_at, entries_at. destruct (i <? c); [apply left_sum|]. destruct (c <? i); [apply right_sum|reflexivity]. Qed.
  Definition entries (ts : list tensor) (c : nat) : list R :=
    flat_map (fun x => entries_at c (fst x) (snd x)) (combine (seq 0 (length ts)) ts).
  Lemma distance_sum (ts : list tensor) c : distance sub ts c = lsum (entries ts c) sqabs.
  Proof. unfold distance, entries. rewrite lsum_flat_map. apply lsum_ext. intros x _. apply at_sum. Qed.

  Section Zero.
    Hypothesis Hsub : sub_ok sub.
    Lemma left_zero (t : tensor) : (forall z, In z (left_entries t) -> z = r0) <-> left_iso t.
    Proof.
      unfold left_entries, left_iso. split.
      - intros H i j Hi Hj. apply Hsub. apply H. apply in_flat_map. exists i. split; [apply in_seq; lia|].
        apply in_map_iff. exists j. split; [reflexivity|apply in_seq; lia].
      - intros H z Hz. apply in_flat_map in Hz as (i & Hi & Hz). apply in_map_iff in Hz as (j & <- & Hj). apply in_seq in Hi, Hj.
        apply Hsub. apply H; lia.
    Qed.
    Lemma right_zero (t : tensor) : (forall z, In z (right_entries t) -> z = r0) <-> right_iso t.
    Proof.
      unfold right_entries, right_iso. split.
      - intros H i j Hi Hj. apply Hsub. apply H. apply in_flat_map. exists i. split; [apply in_seq; lia|].
        apply in_map_iff. exists j. split; [reflexivity|apply in_seq; lia].
      - intros H z Hz. apply in_flat_map in Hz as (i & Hi & Hz). apply in_map_iff in Hz as (j & <- & Hj). apply in_seq in Hi, Hj.
        apply Hsub. apply H; lia.
    Qed.
    Lemma in_combine_seq (ts : list tensor) : forall s i t, In (i, t) (combine (seq s (length ts)) ts) <-> exists k, i = s + k /\ nth_error ts k = Some t.
    Proof.
      induction ts as [|u q IH]; intros s i t; cbn [length seq combine In].
      - split; [intros []|intros (k & _ & H); destruct k; discriminate].
      - rewrite IH. split.
        + intros [E|(k & -> & H)]; [injection E as <- <-; exists 0; split; [lia|reflexivity]|exists (S k); split; [lia|exact H]].
        + intros ([|k] & -> & H); cbn in H; [left; f_equal; [lia|congruence]|right; exists k; split; [lia|exact H]].
    Qed.
    Lemma entries_zero (ts : list tensor) c : (forall z, In z (entries ts c) -> z = r0) <-> canonical ts c.
    Proof.
      unfold entries, canonical. split.
      - intros H i t Ht.
        assert (forall z, In z (entries_at c i t) -> z = r0) as H2.
        { intros z Hz. apply H. apply in_flat_map. exists (i, t). split; [|exact Hz]. apply in_combine_seq. exists i. split; [reflexivity|exact Ht]. }
        unfold entries_at in H2. split; intros L.
        + rewrite (proj2 (Nat.ltb_lt _ _) L) in H2. apply left_zero, H2.
        + replace (i <? c) with false in H2 by (symmetry; apply Nat.ltb_ge; lia). rewrite (proj2 (Nat.ltb_lt _ _) L) in H2. apply right_zero, H2.
      - intros H z Hz. apply in_flat_map in Hz as ([i t] & Hi & Hz). apply in_combine_seq in Hi as (k & -> & Ht).
        destruct (H _ _ Ht) as [HL HR]. cbn [fst snd Nat.add] in Hz. unfold entries_at in Hz.
        destruct (k <? c) eqn:E; [|destruct (c <? k) eqn:E2; [|destruct Hz]].
        + apply (proj2 (left_zero t)); [|exact Hz]. apply HL, Nat.ltb_lt, E.
        + apply (proj2 (right_zero t)); [|exact Hz]. apply HR, Nat.ltb_lt, E2.
    Qed.
    Lemma cj0 : @cj R r0 = r0. Proof. apply cj_0. Qed.
    Lemma sum_zero (l : list R) : @definite R -> (lsum l sqabs = r0 <-> forall z, In z l -> z = r0).
    Proof.
      intros D. split; [apply D|]. intros H. apply lsum_zero. intros z Hz. rewrite (H z Hz). unfold sqabs. ring.
    Qed.
    (** the square root of such a sum vanishes only with the sum *)
    Lemma root_zero (l : list R) : @definite R -> sqrt_ok sqrtf ->
      (sqrtf (lsum l sqabs) = r0 <-> forall z, In z l -> z = r0).
    Proof.
      intros D Q. rewrite <- (sum_zero l D). split; intros H.
      - rewrite <- Q, H. ring.
      - pose proof (Q l) as Ql. rewrite H in *. 
        assert (sqabs (sqrtf r0) = r0 -> sqrtf r0 = r0) as K.
        { intros K. apply (D [sqrtf r0]); [rewrite lsum_cons, lsum_nil, K; ring|left; reflexivity]. }
        apply K. unfold sqabs. apply (D [sqrtf r0 *! cj (sqrtf r0)]); [|left; reflexivity].
        rewrite lsum_cons, lsum_nil. unfold sqabs. rewrite cj_mul.
        replace (sqrtf r0 *! cj (sqrtf r0) *! (cj (sqrtf r0) *! cj (cj (sqrtf r0))) +! r0)
          with ((sqrtf r0 *! cj (cj (sqrtf r0))) *! (cj (sqrtf r0) *! cj (sqrtf r0))) by ring.
        rewrite <- cj_mul, Ql, cj0. ring.
    Qed.
  End Zero.

  (** ** [check_canonical] *)
  Section Canonical.
    Variable m : imps R.
    Variable us : list tensor.
    Hypothesis Hlen : length us = length (tens (icell m)).
    Hypothesis Hat : forall i u, nth_error us i = Some u -> tensor_at iter m (Z.of_nat i) = Ok u.
    Hypothesis Hsh : forall i u, nth_error us i = Some u -> exists a d k, shape u = [a; d; k].
    Hypothesis Hq : sqrt_ok sqrtf.

    Lemma deviations_value c (ns : list nat) : (forall n, In n ns -> n < length us) ->
      exists ds, deviations iter sub sqrtf m c ns = Ok ds /\
        lsum ds (fun x => x) = lsum ns (fun n => distance_at sub c n (nth n us (Tensor [] (fun _ => r0)))) /\
        (ds = [] -> forall n, In n ns -> n = c).
    Proof.
      induction ns as [|n r IH]; intros H.
      - exists []. repeat split. intros _ n [].
      - destruct IH as (ds & E & Es & En); [intros; apply H; right; assumption|]. cbn [deviations].
        rewrite lsum_cons. destruct (n =? c) eqn:Ec.
        + apply Nat.eqb_eq in Ec. subst n. exists ds. split; [exact E|]. split.
          * rewrite Es. unfold distance_at at 2. rewrite Nat.ltb_irrefl. ring.
          * intros N k [<-|Hk]; [reflexivity|exact (En N k Hk)].
        + apply Nat.eqb_neq in Ec.
          destruct (nth_error us n) as [u|] eqn:Eu; [|apply nth_error_None in Eu; specialize (H n (or_introl eq_refl)); lia].
          pose proof (nth_error_nth _ _ (Tensor [] (fun _ => r0)) Eu) as En2. rewrite En2.
          destruct (Hsh Eu) as (a & d & k & Su).
          assert (check_orthonormality iter sub sqrtf m (if n <? c then DLeft else DRight) (Z.of_nat n)
                  = Ok (sqrtf (distance_at sub c n u))) as Ck.
          { unfold distance_at. destruct (n <? c) eqn:L.
            - exact (check_left (Hat Eu) Su).
            - apply Nat.ltb_ge in L. replace (c <? n) with true by (symmetry; apply Nat.ltb_lt; lia). exact (check_right (Hat Eu) Su). }
          rewrite Ck. cbn [rbind]. rewrite E. cbn [rbind]. eexists. split; [reflexivity|]. split.
          * rewrite lsum_cons, Es. f_equal. rewrite at_sum. apply Hq.
          * discriminate.
    Qed.
    Lemma fold_sum (l : list R) : forall x, fold_left radd l x = x +! lsum l (fun y => y).
    Proof.
      induction l as [|y l IH]; intros x; cbn [fold_left]; [rewrite lsum_nil; ring|]. rewrite IH, lsum_cons. ring.
    Qed.
    Lemma total_value c : 2 <= length us -> total_deviation iter sub sqrtf m c = Ok (sqrtf (distance sub us c)).
    Proof.
      intros L. unfold total_deviation. rewrite <- Hlen.
      destruct (@deviations_value c (seq 0 (length us))) as (ds & E & Es & En); [intros n Hn; apply in_seq in Hn; lia|].
      rewrite E. cbn [rbind]. destruct ds as [|d r].
      - pose proof (En eq_refl 0 ltac:(apply in_seq; lia)). pose proof (En eq_refl 1 ltac:(apply in_seq; lia)). lia.
      - do 2 f_equal. rewrite fold_sum. rewrite lsum_cons in Es. rewrite Es. unfold distance.
        clear. assert (forall s (l : list tensor) (g : nat -> tensor -> R),
          lsum (seq s (length l)) (fun n => g n (nth (n - s) l (Tensor [] (fun _ => r0)))) = lsum (combine (seq s (length l)) l) (fun x => g (fst x) (snd x))) as G.
        { intros s l. revert s. induction l as [|u q IH]; intros s g; [reflexivity|]. cbn [length seq combine]. rewrite !lsum_cons. cbn [fst snd].
          rewrite Nat.sub_diag. cbn [nth]. f_equal. rewrite <- (IH (S s) g). apply lsum_ext. intros n Hn. apply in_seq in Hn.
          replace (n - s) with (S (n - S s)) by lia. reflexivity. }
        rewrite <- (G 0 us (distance_at sub c)). apply lsum_ext. intros n _. rewrite Nat.sub_0_r. reflexivity.
    Qed.
  End Canonical.

  Lemma single_site (m : imps R) (t : tensor) : tens (icell m) = [t] -> total_deviation iter sub sqrtf m 0 = Raise.
  Proof. intros E. unfold total_deviation. rewrite E. reflexivity. Qed.
End CheckFacts.
