(** * MpsMeasure: [measure_local_operator], [measure_two_body_correlator] *)
From Coq Require Import List ZArith Lia Permutation.
From Verif Require Import Prelude Res Algebra Tensor TensorFacts ListFacts Ncon BlockSparse Backends BackendFacts
  Mps MpsSpec MpsNcon MpsState MpsMeasureSpec MpsDouble MpsEnv.
Import ListNotations.
Set Implicit Arguments.
Unset Strict Implicit.
Local Open Scope nat_scope.
Local Open Scope csr_scope.

Section Measure.
  Context {R : cjr}.
  Add Ring Rring : (rsr R).
  Notation tensor := (Tensor.tensor R).
  Notation op := (nat -> nat -> R).

  Lemma seq_cut n N : n < N -> seq 0 N = seq 0 n ++ n :: seq (n + 1) (N - (n + 1)).
  Proof.
    intros H. replace N with (n + (1 + (N - (n + 1)))) at 1 by lia. rewrite seq_app. cbn [seq plus]. rewrite Nat.add_1_r. reflexivity.
  Qed.

  Section Family.
    Variables (l r : nat) (ts : list tensor).
    Hypothesis C : chain l ts r.
    Notation N := (length ts).
    Variable F : nat -> op.
    Definition eleftF (n : nat) : nat -> nat -> R := eleft l (firstn n ts) (map F (seq 0 n)).
    Definition erightF (n : nat) : nat -> nat -> R := eright r (skipn n ts) (map F (seq n (N - n))).

    Lemma eleftF_next n t m d k : nth_error ts n = Some t -> chain l (firstn n ts) m -> shape t = [m; d; k] ->
      forall i j, i < k -> j < k -> push m (eleftF n) (F n) t i j = eleftF (n + 1) i j.
    Proof.
      intros Et C1 St i j Hi Hj. unfold eleftF at 2. rewrite (firstn_snoc Et), Nat.add_1_r, seq_S, map_app. cbn [map plus].
      assert (n < N) by (apply nth_error_Some; congruence).
      assert (length (map F (seq 0 n)) = length (firstn n ts)) as L by (rewrite map_length, seq_length, firstn_length; lia).
      rewrite (eleft_snoc (F n) C1 L St Hi Hj). reflexivity.
    Qed.
    Lemma erightF_prev n t m d k : nth_error ts n = Some t -> shape t = [m; d; k] ->
      forall i j, pull k (erightF (n + 1)) (F n) t i j = erightF n i j.
    Proof.
      intros Et St i j. unfold erightF at 2. assert (n < N) by (apply nth_error_Some; congruence).
      rewrite (skipn_cons Et). replace (N - n) with (S (N - (n + 1))) by lia. cbn [seq map]. replace (S n) with (n + 1) by lia.
      rewrite (eright_cons _ _ _ _ _ _ St). reflexivity.
    Qed.
    Lemma expectF n t m d k : nth_error ts n = Some t -> chain l (firstn n ts) m -> shape t = [m; d; k] ->
      nsum k (fun c => nsum k (fun c' => push m (eleftF n) (F n) t c c' *! erightF (n + 1) c c')) = expectation l r ts (sitewise N F).
    Proof.
      intros Et C1 St. assert (n < N) as Hn by (apply nth_error_Some; congruence).
      assert (chain l (firstn (n + 1) ts) k) as C2.
      { rewrite (firstn_snoc Et). apply chain_app. exists m. split; [exact C1|]. exists d, k. split; [exact St | reflexivity]. }
      transitivity (expectation l r (firstn (n + 1) ts ++ skipn (n + 1) ts) (map F (seq 0 (n + 1)) ++ map F (seq (n + 1) (N - (n + 1))))).
      - rewrite (expectation_split r (skipn (n + 1) ts) (map F (seq (n + 1) (N - (n + 1)))) C2).
        + apply nsum_ext. intros c Hc. apply nsum_ext. intros c' Hc'. rewrite (eleftF_next Et C1 St Hc Hc'). reflexivity.
        + rewrite map_length, seq_length, firstn_length. lia.
      - rewrite firstn_skipn, <- map_app. unfold sitewise. f_equal. f_equal.
        transitivity (seq 0 ((n + 1) + (N - (n + 1)))); [symmetry; exact (seq_app (n + 1) (N - (n + 1)) 0) | f_equal; lia].
    Qed.
    Lemma map_const_idents (f : nat -> op) a (p : list tensor) : (forall i, a <= i < a + length p -> f i = ident) -> map f (seq a (length p)) = idents p.
    Proof.
      revert a. induction p as [|t p IH]; intros a H; [reflexivity|]. cbn [length seq map idents]. rewrite H by (cbn; lia). f_equal. apply IH.
      intros i Hi. apply H. cbn. lia.
    Qed.
    Lemma eleftF_ident n : n <= N -> (forall i, i < n -> F i = ident) -> forall i j, eleftF n i j = left_part l (firstn n ts) i j.
    Proof.
      intros Hn H i j. unfold eleftF. rewrite <- eleft_idents. f_equal.
      replace n with (length (firstn n ts)) at 1 by (rewrite firstn_length; lia). apply map_const_idents. intros x Hx. apply H. rewrite firstn_length in Hx. lia.
    Qed.
    Lemma erightF_ident n : n <= N -> (forall i, n <= i < N -> F i = ident) -> forall i j, erightF n i j = right_part r (skipn n ts) i j.
    Proof.
      intros Hn H i j. unfold erightF. rewrite <- eright_idents. f_equal.
      replace (N - n) with (length (skipn n ts)) by apply skipn_length. apply map_const_idents. intros x Hx. apply H. rewrite skipn_length in Hx. lia.
    Qed.
  End Family.

  Lemma push_ext m f f' o o' (t : tensor) i j : (forall a b, a < m -> b < m -> f a b = f' a b) -> (forall v u, o v u = o' v u) -> push m f o t i j = push m f' o' t i j.
  Proof.
    intros H H'. unfold push. apply nsum_ext. intros a Ha. apply nsum_ext. intros b Hb. rewrite H by assumption. f_equal.
    unfold tstep. apply nsum_ext. intros u _. apply nsum_ext. intros v _. rewrite H'. reflexivity.
  Qed.

  Lemma local_value l r ts F n t (o L Rr : tensor) d : chain l ts r -> nth_error ts n = Some t -> nth 1 (shape t) 0 = d -> shape o = [d; d] ->
    (exists k, is_mat k L (eleftF l ts F n)) -> (exists k, is_mat k Rr (erightF r ts F (n + 1))) ->
    nth 0 (shape L) 0 = nth 0 (shape t) 0 -> nth 0 (shape Rr) 0 = nth 2 (shape t) 0 ->
    (forall v u, F n v u = mat o v u) -> sandwich L t o Rr = Ok (expectation l r ts (sitewise (length ts) F)).
  Proof.
    intros C Et Ed So (k & ML) (k' & MR) EL ER Ho. destruct (chain_cut C Et) as (m & d' & k1 & C1 & St & C2).
    rewrite St in *. cbn [nth] in *. subst d'. destruct ML as [SL ML], MR as [SR MR]. rewrite SL in EL. rewrite SR in ER. cbn [nth] in *. subst k k'.
    rewrite (sandwich_spec (conj SL ML) (conj SR MR) St So). f_equal. rewrite <- (expectF r F Et C1 St).
    apply nsum_ext. intros c Hc. apply nsum_ext. intros c' Hc'. f_equal. apply push_ext; [reflexivity|]. intros v u. rewrite Ho. reflexivity.
  Qed.

  Definition local_at (n : nat) (o : tensor) (i : nat) : op := if i =? n then mat o else ident.

  Lemma mapr_ok A B (f : A -> res B) (g : A -> B) (xs : list A) : (forall x, In x xs -> f x = Ok (g x)) -> mapr f xs = Ok (map g xs).
  Proof.
    induction xs as [|x xs IH]; intros H; [reflexivity|]. cbn [mapr map]. rewrite H by (left; reflexivity). cbn [rbind].
    rewrite IH by (intros; apply H; right; assumption). reflexivity.
  Qed.

  Lemma good_l_dim l r (ts : list tensor) n t e : chain l ts r -> nth_error ts n = Some t -> good_l l (firstn n ts) e ->
    is_mat (nth 0 (shape t) 0) e (left_part l (firstn n ts)) /\ nth 0 (shape e) 0 = nth 0 (shape t) 0.
  Proof.
    intros C Et (k & C' & M). destruct (chain_cut C Et) as (m & d & k1 & C1 & St & _). assert (k = m) as -> by (eapply chain_det; eassumption).
    rewrite St. cbn [nth]. split; [exact M|]. destruct M as [-> _]. reflexivity.
  Qed.
  Lemma good_r_dim l r (ts : list tensor) n t e : chain l ts r -> nth_error ts n = Some t -> good_r r (skipn (n + 1) ts) e ->
    is_mat (nth 2 (shape t) 0) e (right_part r (skipn (n + 1) ts)) /\ nth 0 (shape e) 0 = nth 2 (shape t) 0.
  Proof.
    intros C Et (k & C' & M). destruct (chain_cut C Et) as (m & d & k1 & _ & St & C1). assert (k = k1) as -> by (eapply chain_det_l; eassumption).
    rewrite St. cbn [nth]. split; [exact M|]. destruct M as [-> _]. reflexivity.
  Qed.

  Definition centred (m : mps R) : Prop := forall c, centre m = Some c -> c < length (tens m) /\ canonical (tens m) c.

  Lemma local_spec l r (m : mps R) ops sites : chain l (tens m) r -> tens m <> [] -> centred m -> length ops = length sites ->
    (forall o s, In (o, s) (combine ops sites) -> (0 <= s < Z.of_nat (length (tens m)))%Z /\ exists d, nth_error (phys (tens m)) (Z.to_nat s) = Some d /\ shape o = [d; d]) ->
    measure_local_operator m ops sites =
      Ok (map (fun x => expectation l r (tens m) (sitewise (length (tens m)) (local_at (Z.to_nat (snd x)) (fst x)))) (combine ops sites)).
  Proof.
    intros C Ne Hc L H. unfold measure_local_operator, guard. rewrite (proj2 (Nat.eqb_eq _ _) L).
    assert (forall s, In s sites -> (0 <= s < Z.of_nat (length (tens m)))%Z) as Hs.
    { intros s I. destruct (In_nth _ _ 0%Z I) as (i & Hi & <-). destruct (nth_error ops i) as [o|] eqn:Eo; [|apply nth_error_None in Eo; lia].
      apply (H o). assert (nth_error (combine ops sites) i = Some (o, nth i sites 0%Z)) as E; [|exact (nth_error_In _ _ E)].
      rewrite <- (nth_error_nth _ _ o Eo) at 1. rewrite <- combine_nth by exact L. apply nth_error_nth'. rewrite combine_length. lia. }
    destruct (right_envs_spec C Ne Hc (sites := sites) ltac:(intros s I; specialize (Hs s I); lia)) as (rs & -> & Hr). cbn [rbind].
    destruct (left_envs_spec C Ne Hc (sites := sites) ltac:(intros s I; specialize (Hs s I); lia)) as (ls & -> & Hl). cbn [rbind].
    apply mapr_ok. intros [o s] I. cbn [fst snd]. destruct (H o s I) as (Hs1 & d & Hd & So). pose proof (in_combine_r _ _ _ _ I) as Is.
    set (n := Z.to_nat s) in *. assert (Z.of_nat n = s) as En by (unfold n; lia). clearbody n.
    destruct (Hr (n + 1)) as [Hr1 _]. destruct Hr1 as (er & -> & Gr); [replace (Z.of_nat (n + 1) - 1)%Z with s by lia; exact Is|]. cbn [rbind].
    destruct (Hl n) as [Hl1 _]. destruct Hl1 as (el & -> & Gl); [rewrite En; exact Is|]. cbn [rbind].
    unfold phys in Hd. rewrite nth_error_map in Hd. unfold get. destruct (nth_error (tens m) n) as [t|] eqn:Et; [|discriminate]. cbn in Hd. injection Hd as Hd. cbn [rbind].
    destruct (good_l_dim C Et Gl) as [Ml Dl]. destruct (good_r_dim C Et Gr) as [Mr Dr].
    assert (n < length (tens m)) by (apply nth_error_Some; congruence).
    eapply (local_value (F := local_at n o) C Et Hd So).
    - eexists. eapply is_mat_ext; [|exact Ml]. intros i j _ _. symmetry. apply eleftF_ident; [lia|]. intros x Hx. unfold local_at. rewrite (proj2 (Nat.eqb_neq x n)) by lia. reflexivity.
    - eexists. eapply is_mat_ext; [|exact Mr]. intros i j _ _. symmetry. apply erightF_ident; [lia|]. intros x Hx. unfold local_at. rewrite (proj2 (Nat.eqb_neq x n)) by lia. reflexivity.
    - exact Dl.
    - exact Dr.
    - intros v u. unfold local_at. rewrite Nat.eqb_refl. reflexivity.
  Qed.

  (** ** two-body correlators *)
  Definition two_at (o1 o2 : tensor) (n1 n2 : nat) (i : nat) : op :=
    if (i =? n1) && (i =? n2) then matmat o1 o2 else if i =? n1 then mat o1 else if i =? n2 then mat o2 else ident.

  Variable iter : list Z -> list Z.
  Hypothesis iter_perm : forall x, Permutation (iter x) x.

  Lemma transfer_left (e a : tensor) f l d k : is_mat l e f -> shape a = [l; d; k] ->
    exists y, left_transfer_operator iter a e (conj_t a) = Ok y /\ is_mat k y (push l f ident a).
  Proof.
    intros [Se Ee] Sa. destruct (@ncon_left_transfer R iter iter_perm a e (conj_t a) l d k l k Sa Se Sa) as (y & Y & Sy & Ey).
    exists y. split; [exact Y|]. split; [exact Sy|]. intros i j Hi Hj. rewrite Ey by assumption. unfold push. apply nsum_ext. intros c Hc.
    rewrite nsum_swap. apply nsum_ext. intros c' Hc'. rewrite (tstep_ident _ _ _ _ Sa), <- nsum_mul_l. apply nsum_ext. intros u Hu. rewrite Ee by assumption. reflexivity.
  Qed.
  Lemma transfer_right (e a : tensor) f l d k : is_mat k e f -> shape a = [l; d; k] ->
    exists y, right_transfer_operator iter a e (conj_t a) = Ok y /\ is_mat l y (pull k f ident a).
  Proof.
    intros [Se Ee] Sa. destruct (@ncon_right_transfer R iter iter_perm a e (conj_t a) l d k l k Sa Se Sa) as (y & Y & Sy & Ey).
    exists y. split; [exact Y|]. split; [exact Sy|]. intros i j Hi Hj. rewrite Ey by assumption. unfold pull. apply nsum_ext. intros c Hc.
    rewrite nsum_swap. apply nsum_ext. intros c' Hc'. rewrite (tstep_ident _ _ _ _ Sa), <- nsum_mul_r. apply nsum_ext. intros u Hu. rewrite Ee by assumption.
    rewrite conj_elt. ring.
  Qed.

  Section Two.
    Variables (l r : nat) (m : mps R).
    Notation ts := (tens m).
    Notation N := (length (tens m)).
    Hypothesis C : chain l (tens m) r.
    Variables (o1 o2 : tensor) (s1 : nat).
    Hypothesis Hs1 : s1 < N.
    Definition corr (n : nat) : R := expectation l r ts (sitewise N (two_at o1 o2 s1 n)).
    (** [op1] only *)
    Notation F1 := (local_at s1 o1).

    Lemma two_at_below n i : i < n -> n <> s1 -> two_at o1 o2 s1 n i = F1 i.
    Proof.
      intros Hi Hn. unfold two_at, local_at. rewrite (proj2 (Nat.eqb_neq i n)) by lia. rewrite Bool.andb_false_r. reflexivity.
    Qed.
    Lemma two_at_above n i : n < i -> n <> s1 -> two_at o1 o2 s1 n i = F1 i.
    Proof.
      intros Hi Hn. unfold two_at, local_at. rewrite (proj2 (Nat.eqb_neq i n)) by lia. rewrite Bool.andb_false_r. reflexivity.
    Qed.
    Lemma eleftF_ext F G n : (forall i, i < n -> F i = G i) -> forall i j, eleftF l ts F n i j = eleftF l ts G n i j.
    Proof. intros H i j. unfold eleftF. f_equal. apply map_ext_in. intros x Hx. apply in_seq in Hx. apply H. lia. Qed.
    Lemma erightF_ext F G n : (forall i, n <= i -> F i = G i) -> forall i j, erightF r ts F n i j = erightF r ts G n i j.
    Proof. intros H i j. unfold erightF. f_equal. apply map_ext_in. intros x Hx. apply in_seq in Hx. apply H. lia. Qed.

    (** the environments with [op1] *)
    Definition opl n (e : tensor) : Prop := exists k, chain l (firstn n ts) k /\ is_mat k e (eleftF l ts F1 n).
    Definition opr n (e : tensor) : Prop := exists k, chain k (skipn n ts) r /\ is_mat k e (erightF r ts F1 n).

    Lemma opl_next n t e : nth_error ts n = Some t -> n <> s1 -> opl n e -> exists y, left_transfer_operator iter t e (conj_t t) = Ok y /\ opl (n + 1) y.
    Proof.
      intros Et Hn (k & C1 & M). destruct (chain_cut C Et) as (k' & d & k1 & C1' & St & C2). assert (k' = k) as -> by (eapply chain_det; eassumption).
      destruct (transfer_left M St) as (y & Y & My). exists y. split; [exact Y|]. exists k1. split.
      - rewrite (firstn_snoc Et). apply chain_app. exists k. split; [exact C1|]. exists d, k1. split; [exact St | reflexivity].
      - eapply is_mat_ext; [|exact My]. intros i j Hi Hj. rewrite <- (eleftF_next F1 Et C1 St Hi Hj). apply push_ext; [reflexivity|].
        intros v u. unfold local_at. rewrite (proj2 (Nat.eqb_neq n s1)) by exact Hn. reflexivity.
    Qed.
    Lemma pull_ext k f o o' (t : tensor) i j : (forall v u, o v u = o' v u) -> pull k f o t i j = pull k f o' t i j.
    Proof.
      intros H'. unfold pull. apply nsum_ext. intros a Ha. apply nsum_ext. intros b Hb. f_equal.
      unfold tstep. apply nsum_ext. intros u _. apply nsum_ext. intros v _. rewrite H'. reflexivity.
    Qed.
    Lemma opr_next n t e : nth_error ts n = Some t -> n <> s1 -> opr (n + 1) e -> exists y, right_transfer_operator iter t e (conj_t t) = Ok y /\ opr n y.
    Proof.
      intros Et Hn (k & C1 & M). destruct (chain_cut C Et) as (k' & d & k1 & C1' & St & C2). assert (k1 = k) as -> by (eapply chain_det_l; eassumption).
      destruct (transfer_right M St) as (y & Y & My). exists y. split; [exact Y|]. exists k'. split.
      - rewrite (skipn_cons Et). exists d, k. split; assumption.
      - eapply is_mat_ext; [|exact My]. intros i j Hi Hj. rewrite <- (erightF_prev r F1 Et St). apply pull_ext.
        intros v u. unfold local_at. rewrite (proj2 (Nat.eqb_neq n s1)) by exact Hn. reflexivity.
    Qed.

    Lemma value_right n t el er : nth_error ts n = Some t -> s1 < n -> (exists d, nth_error (phys ts) n = Some d /\ shape o2 = [d; d]) ->
      opl n el -> good_r r (skipn (n + 1) ts) er -> sandwich el t o2 er = Ok (corr n).
    Proof.
      intros Et Hn (d & Hd & So) (k & C1 & M) Gr. unfold phys in Hd. rewrite nth_error_map, Et in Hd. cbn in Hd. injection Hd as Hd.
      assert (n < N) by (apply nth_error_Some; congruence).
      destruct (good_r_dim C Et Gr) as [Mr Dr]. destruct (chain_cut C Et) as (k' & d' & k1 & C1' & St & C2). assert (k' = k) as -> by (eapply chain_det; eassumption).
      unfold corr. eapply (local_value (F := two_at o1 o2 s1 n) C Et Hd So).
      - eexists. eapply is_mat_ext; [|exact M]. intros i j _ _. apply eleftF_ext. intros x Hx. symmetry. apply two_at_below; lia.
      - eexists. eapply is_mat_ext; [|exact Mr]. intros i j _ _. symmetry. apply erightF_ident; [lia|]. intros x Hx. unfold two_at.
        rewrite (proj2 (Nat.eqb_neq x s1)), (proj2 (Nat.eqb_neq x n)) by lia. reflexivity.
      - destruct M as [-> _]. rewrite St. reflexivity.
      - exact Dr.
      - intros v u. unfold two_at. rewrite (proj2 (Nat.eqb_neq n s1)), Nat.eqb_refl by lia. reflexivity.
    Qed.
    Lemma value_left n t el er : nth_error ts n = Some t -> n < s1 -> (exists d, nth_error (phys ts) n = Some d /\ shape o2 = [d; d]) ->
      good_l l (firstn n ts) el -> opr (n + 1) er -> sandwich el t o2 er = Ok (corr n).
    Proof.
      intros Et Hn (d & Hd & So) Gl (k & C1 & M). unfold phys in Hd. rewrite nth_error_map, Et in Hd. cbn in Hd. injection Hd as Hd.
      assert (n < N) by (apply nth_error_Some; congruence).
      destruct (good_l_dim C Et Gl) as [Ml Dl]. destruct (chain_cut C Et) as (k' & d' & k1 & C1' & St & C2). assert (k1 = k) as -> by (eapply chain_det_l; eassumption).
      unfold corr. eapply (local_value (F := two_at o1 o2 s1 n) C Et Hd So).
      - eexists. eapply is_mat_ext; [|exact Ml]. intros i j _ _. symmetry. apply eleftF_ident; [lia|]. intros x Hx. unfold two_at.
        rewrite (proj2 (Nat.eqb_neq x s1)), (proj2 (Nat.eqb_neq x n)) by lia. reflexivity.
      - eexists. eapply is_mat_ext; [|exact M]. intros i j _ _. apply erightF_ext. intros x Hx. symmetry. apply two_at_above; lia.
      - exact Dl.
      - destruct M as [-> _]. rewrite St. reflexivity.
      - intros v u. unfold two_at. rewrite (proj2 (Nat.eqb_neq n s1)), Nat.eqb_refl by lia. reflexivity.
    Qed.

    Lemma right_corr_spec rights n2 rs fuel : forall n el, s1 < n -> (fuel = 0 \/ Z.of_nat (n + fuel) = (n2 + 1)%Z) -> n + fuel <= N -> opl n el ->
      (forall s, n <= s < n + fuel -> In (Z.of_nat s) rights ->
         (exists d, nth_error (phys ts) s = Some d /\ shape o2 = [d; d]) /\ exists er, dget rs (s + 1) = Ok er /\ good_r r (skipn (s + 1) ts) er) ->
      right_corr iter m o2 rights n2 rs el (Z.of_nat n) fuel = Ok (map corr (filter (fun s => zin (Z.of_nat s) rights) (seq n fuel))).
    Proof.
      induction fuel as [|fuel IH]; intros n el Hn Hf HN Hl H; [reflexivity|]. cbn [right_corr seq filter].
      rewrite Z.mod_small by lia. rewrite Nat2Z.id. destruct (@get_ok R ts n ltac:(lia)) as (t & -> & Et). cbn [rbind].
      destruct (opl_next Et ltac:(lia) Hl) as (y & Y & Hy).
      assert (rbind (if (Z.of_nat n <? n2)%Z then left_transfer_operator iter t el (conj_t t) else Ok el) (fun l' =>
        right_corr iter m o2 rights n2 rs l' (Z.of_nat n + 1)%Z fuel) = Ok (map corr (filter (fun s => zin (Z.of_nat s) rights) (seq (S n) fuel)))) as IH'.
      { replace (Z.of_nat n + 1)%Z with (Z.of_nat (n + 1)) by lia. replace (S n) with (n + 1) by lia.
        destruct (Z.ltb_spec (Z.of_nat n) n2) as [Lt|Ge].
        - rewrite Y. cbn [rbind]. apply IH; [lia | right; lia | lia | exact Hy |]. intros s Hs. apply H. lia.
        - assert (fuel = 0) as -> by lia. reflexivity. }
      destruct (zin (Z.of_nat n) rights) eqn:Z.
      - destruct (H n ltac:(lia) (proj1 (zin_spec _ _) Z)) as (Hd & er & Er & Gr). rewrite Er. cbn [rbind].
        rewrite (value_right Et Hn Hd Hl Gr). cbn [rbind].
        destruct (if (Z.of_nat n <? n2)%Z then left_transfer_operator iter t el (conj_t t) else Ok el) as [l'| |]; [|discriminate..].
        cbn [rbind] in *. rewrite IH'. reflexivity.
      - cbn [rbind]. destruct (if (Z.of_nat n <? n2)%Z then left_transfer_operator iter t el (conj_t t) else Ok el) as [l'| |]; [|discriminate..].
        cbn [rbind] in *. rewrite IH'. reflexivity.
    Qed.
    Lemma left_corr_spec lefts n1 ls fuel : forall er c, n1 + fuel <= s1 -> opr (n1 + fuel) er ->
      (forall s, n1 <= s < n1 + fuel -> In (Z.of_nat s) lefts ->
         (exists d, nth_error (phys ts) s = Some d /\ shape o2 = [d; d]) /\ exists el, dget ls s = Ok el /\ good_l l (firstn s ts) el) ->
      left_corr iter m o2 lefts (Z.of_nat n1) ls er (Z.of_nat (n1 + fuel) - 1)%Z fuel c = Ok (map corr (filter (fun s => zin (Z.of_nat s) lefts) (seq n1 fuel)) ++ c).
    Proof.
      induction fuel as [|fuel IH]; intros er c HN Hr H; [reflexivity|]. cbn [left_corr].
      replace (Z.of_nat (n1 + S fuel) - 1)%Z with (Z.of_nat (n1 + fuel)) by lia. rewrite Z.mod_small by lia. rewrite Nat2Z.id.
      destruct (@get_ok R ts (n1 + fuel) ltac:(lia)) as (t & -> & Et). cbn [rbind].
      replace (n1 + S fuel) with (n1 + fuel + 1) in Hr by lia. destruct (opr_next Et ltac:(lia) Hr) as (y & Y & Hy).
      assert (forall c, rbind (if (Z.of_nat n1 <? Z.of_nat (n1 + fuel))%Z then right_transfer_operator iter t er (conj_t t) else Ok er) (fun r' =>
        left_corr iter m o2 lefts (Z.of_nat n1) ls r' (Z.of_nat (n1 + fuel) - 1)%Z fuel c) = Ok (map corr (filter (fun s => zin (Z.of_nat s) lefts) (seq n1 fuel)) ++ c)) as IH'.
      { intros c'. destruct (Z.ltb_spec (Z.of_nat n1) (Z.of_nat (n1 + fuel))) as [Lt|Ge].
        - rewrite Y. cbn [rbind]. apply IH; [lia | exact Hy |]. intros s Hs. apply H. lia.
        - assert (fuel = 0) as -> by lia. reflexivity. }
      rewrite seq_S, filter_app, map_app. cbn [filter]. destruct (zin (Z.of_nat (n1 + fuel)) lefts) eqn:Z.
      - destruct (H (n1 + fuel) ltac:(lia) (proj1 (zin_spec _ _) Z)) as (Hd & el & El & Gl). rewrite El. cbn [rbind].
        rewrite (value_left Et ltac:(lia) Hd Gl Hr). cbn [rbind]. rewrite IH', <- app_assoc. reflexivity.
      - cbn [rbind map]. rewrite IH', app_nil_r. reflexivity.
    Qed.

    Lemma matmat_tensordot d : shape o1 = [d; d] -> shape o2 = [d; d] -> con o1 o2 [1] [0] = Ok (tensordot o1 o2 [1] [0]) /\
      shape (tensordot o1 o2 [1] [0]) = [d; d] /\ forall v u, mat (tensordot o1 o2 [1] [0]) v u = matmat o1 o2 v u.
    Proof.
      intros S1 S2. split; [apply con_ok; rewrite S1, S2; reflexivity|]. unfold matmat, mat, tensordot, rank. rewrite S1, S2. split; [reflexivity|].
      intros v u. cbn -[lsum nsum]. unfold nsum. rewrite lsum_flat_map. apply lsum_ext. intros w _. cbn. ring.
    Qed.

    Lemma filter_seq_none (p : nat -> bool) a n : (forall i, a <= i < a + n -> p i = false) -> filter p (seq a n) = [].
    Proof.
      revert a. induction n as [|n IH]; intros a H; [reflexivity|]. cbn [seq filter]. rewrite H by lia. apply IH. intros i Hi. apply H. lia.
    Qed.

    Lemma two_body_spec sites2 : ts <> [] -> centred m ->
      (forall s, In s sites2 -> (0 <= s < Z.of_nat N)%Z /\ exists d, nth_error (phys ts) (Z.to_nat s) = Some d /\ shape o2 = [d; d]) ->
      (exists d, nth_error (phys ts) s1 = Some d /\ shape o1 = [d; d]) ->
      measure_two_body_correlator iter m o1 o2 (Z.of_nat s1) sites2 =
        Ok (map corr (filter (fun n => zin (Z.of_nat n) sites2) (seq 0 N))).
    Proof.
      intros Ne Hc H2 (d1 & Hd1 & So1). unfold measure_two_body_correlator, guard. rewrite (proj2 (Z.ltb_ge _ _)) by lia. cbn [negb].
      set (lefts := filter (fun s => (s <? Z.of_nat s1)%Z) sites2). set (rights := filter (fun s => (Z.of_nat s1 <? s)%Z) sites2).
      assert (forall s, In s lefts <-> In s sites2 /\ (s < Z.of_nat s1)%Z) as HL by (intros s; unfold lefts; rewrite filter_In, Z.ltb_lt; reflexivity).
      assert (forall s, In s rights <-> In s sites2 /\ (Z.of_nat s1 < s)%Z) as HR by (intros s; unfold rights; rewrite filter_In, Z.ltb_lt; reflexivity).
      assert (map (fun s => (s mod Z.of_nat N)%Z) rights = rights) as ->.
      { rewrite <- (map_id rights) at 2. apply map_ext_in. intros s I. apply Z.mod_small. apply HR in I. apply H2. apply I. }
      assert (map (fun s => (s mod Z.of_nat N)%Z) lefts = lefts) as ->.
      { rewrite <- (map_id lefts) at 2. apply map_ext_in. intros s I. apply Z.mod_small. apply HL in I. apply H2. apply I. }
      destruct (right_envs_spec C Ne Hc (sites := Z.of_nat s1 :: rights)) as (rs & -> & Hrs).
      { intros s [<-|I]; [lia|]. apply HR in I. destruct (H2 s) as [? _]; [apply I|]. lia. }
      cbn [rbind]. destruct (left_envs_spec C Ne Hc (sites := lefts ++ [Z.of_nat s1])) as (ls & -> & Hls).
      { intros s I. apply in_app_iff in I. destruct I as [I|[<-|[]]]; [|lia]. apply HL in I. destruct (H2 s) as [? _]; [apply I|]. lia. }
      cbn [rbind]. rewrite Nat2Z.id. destruct (@get_ok R ts s1 Hs1) as (t & -> & Et). cbn [rbind].
      destruct (Hrs (s1 + 1)) as [Hr1 _]. destruct Hr1 as (er & Er & Gr). { left. lia. } rewrite Er. cbn [rbind].
      destruct (Hls s1) as [Hl1 _]. destruct Hl1 as (el & El & Gl). { apply in_or_app. right. left. reflexivity. } rewrite El. cbn [rbind].
      destruct (chain_cut C Et) as (kl & d' & kr & C1 & St & C2).
      assert (d' = d1) as -> by (unfold phys in Hd1; rewrite nth_error_map, Et in Hd1; cbn in Hd1; rewrite St in Hd1; cbn in Hd1; congruence).
      destruct (good_l_dim C Et Gl) as [Ml Dl]. destruct (good_r_dim C Et Gr) as [Mr Dr]. rewrite St in Ml, Mr. cbn [nth] in Ml, Mr.
      (* the three parts of the result *)
      assert (filter (fun n => zin (Z.of_nat n) sites2) (seq 0 N) =
        filter (fun n => zin (Z.of_nat n) lefts) (seq 0 s1) ++ (if zin (Z.of_nat s1) sites2 then [s1] else []) ++
        filter (fun n => zin (Z.of_nat n) rights) (seq (s1 + 1) (N - (s1 + 1)))) as Parts.
      { rewrite (seq_cut Hs1), filter_app. cbn [filter]. f_equal.
        - apply filter_ext_in. intros n I. apply in_seq in I. apply Bool.eq_iff_eq_true. rewrite !zin_spec, HL. split; [intros; split; [assumption | lia] | intros [? _]; assumption].
        - assert (filter (fun n => zin (Z.of_nat n) sites2) (seq (s1 + 1) (N - (s1 + 1))) = filter (fun n => zin (Z.of_nat n) rights) (seq (s1 + 1) (N - (s1 + 1)))) as ->.
          { apply filter_ext_in. intros n I. apply in_seq in I. apply Bool.eq_iff_eq_true. rewrite !zin_spec, HR. split; [intros; split; [assumption | lia] | intros [? _]; assumption]. }
          destruct (zin (Z.of_nat s1) sites2); reflexivity. }
      (* sites on the left *)
      match goal with |- rbind ?X _ = _ => assert (X = Ok (map corr (filter (fun n => zin (Z.of_nat n) lefts) (seq 0 s1)))) as -> end.
      { clear Parts. destruct lefts as [|x xs] eqn:EL.
        - rewrite filter_seq_none by reflexivity. reflexivity.
        - rewrite <- EL in *. destruct (zmin_spec xs x) as [M1 M2]. rewrite <- EL in M1, M2. set (n1 := zmin xs x) in *. clearbody n1.
          assert (shape o1 = [d1; d1]) as So1' by exact So1.
          destruct (absorb_right_spec Mr St So1') as (y & -> & My). cbn [rbind].
          pose proof (proj1 (HL n1) M2) as [I1 L1]. pose proof (proj1 (H2 n1 I1)) as B1.
          assert (opr s1 y) as Oy.
          { exists kl. split; [rewrite (skipn_cons Et); exists d1, kr; split; assumption|]. eapply is_mat_ext; [|exact My]. intros i j Hi Hj.
            rewrite <- (erightF_prev r F1 Et St). assert (local_at s1 o1 s1 = mat o1) as -> by (unfold local_at; rewrite Nat.eqb_refl; reflexivity). unfold pull. apply nsum_ext. intros a Ha. apply nsum_ext. intros b Hb. f_equal.
            symmetry. apply erightF_ident; [lia|]. intros z Hz. unfold local_at. rewrite (proj2 (Nat.eqb_neq z s1)) by lia. reflexivity. }
          set (a := Z.to_nat n1). replace n1 with (Z.of_nat a) by (unfold a; lia).
          replace (Z.of_nat s1 - 1)%Z with (Z.of_nat (a + (s1 - a)) - 1)%Z by (unfold a; lia).
          replace (Z.to_nat (Z.of_nat s1 - Z.of_nat a)) with (s1 - a) by lia.
          rewrite left_corr_spec.
          + rewrite app_nil_r. f_equal. f_equal. replace s1 with (a + (s1 - a)) at 2 by (unfold a; lia). rewrite seq_app, filter_app.
            rewrite (@filter_seq_none _ 0 a); [reflexivity|]. intros i Hi. apply Bool.not_true_is_false. rewrite zin_spec. intros I. specialize (M1 _ I). unfold a in Hi. lia.
          + unfold a. lia.
          + replace (a + (s1 - a)) with s1 by (unfold a; lia). exact Oy.
          + intros s Hs I. apply HL in I. destruct I as [I _]. split; [|].
            * destruct (H2 _ I) as [_ HH]. rewrite Nat2Z.id in HH. exact HH.
            * destruct (Hls s) as [Hl1 _]. apply Hl1. apply in_or_app. left. apply HL. split; [exact I|]. unfold a in Hs. lia. }
      cbn [rbind].
      (* the same site *)
      match goal with |- rbind ?X _ = _ => assert (X = Ok (map corr (if zin (Z.of_nat s1) sites2 then [s1] else []))) as -> end.
      { destruct (zin (Z.of_nat s1) sites2) eqn:Z; [|reflexivity]. apply zin_spec in Z. destruct (H2 _ Z) as (_ & d & Hd & So2). rewrite Nat2Z.id in Hd.
        assert (d = d1) as -> by congruence. destruct (matmat_tensordot So1 So2) as (-> & So & Mo). cbn [rbind]. cbn [map].
        assert (nth 1 (shape t) 0 = d1) as Ed by (rewrite St; reflexivity).
        rewrite (@local_value l r ts (two_at o1 o2 s1 s1) s1 t _ el er d1 C Et Ed So); [reflexivity|..].
        - eexists. eapply is_mat_ext; [|exact Ml]. intros i j _ _. symmetry. apply eleftF_ident; [lia|]. intros z Hz. unfold two_at.
          rewrite (proj2 (Nat.eqb_neq z s1)) by lia. reflexivity.
        - eexists. eapply is_mat_ext; [|exact Mr]. intros i j _ _. symmetry. apply erightF_ident; [lia|]. intros z Hz. unfold two_at.
          rewrite (proj2 (Nat.eqb_neq z s1)) by lia. reflexivity.
        - exact Dl.
        - exact Dr.
        - intros v u. rewrite Mo. unfold two_at. rewrite Nat.eqb_refl. reflexivity. }
      cbn [rbind].
      (* sites on the right *)
      match goal with |- rbind ?X _ = _ => assert (X = Ok (map corr (filter (fun n => zin (Z.of_nat n) rights) (seq (s1 + 1) (N - (s1 + 1)))))) as -> end.
      { clear Parts. destruct rights as [|x xs] eqn:EL.
        - rewrite filter_seq_none by reflexivity. reflexivity.
        - rewrite <- EL in *. destruct (zmax_spec xs x) as [M1 M2]. rewrite <- EL in M1, M2. set (n2 := zmax xs x) in *. clearbody n2.
          destruct (absorb_left_spec Ml St So1) as (y & -> & My). cbn [rbind].
          pose proof (proj1 (HR n2) M2) as [I1 L1]. pose proof (proj1 (H2 n2 I1)) as B1.
          assert (opl (s1 + 1) y) as Oy.
          { exists kr. split; [rewrite (firstn_snoc Et); apply chain_app; exists kl; split; [exact C1 | exists d1, kr; split; [exact St | reflexivity]]|].
            eapply is_mat_ext; [|exact My]. intros i j Hi Hj.
            rewrite <- (eleftF_next F1 Et C1 St Hi Hj). apply push_ext; [|intros v u; unfold local_at; rewrite Nat.eqb_refl; reflexivity].
            intros a b Ha Hb. symmetry. apply eleftF_ident; [lia|]. intros z Hz. unfold local_at. rewrite (proj2 (Nat.eqb_neq z s1)) by lia. reflexivity. }
          replace (Z.of_nat s1 + 1)%Z with (Z.of_nat (s1 + 1)) by lia. set (j := Z.to_nat (n2 - Z.of_nat s1)).
          rewrite right_corr_spec.
          + f_equal. f_equal. replace (N - (s1 + 1)) with (j + (N - (s1 + 1) - j)) by (unfold j; lia). rewrite seq_app, filter_app.
            rewrite (@filter_seq_none _ (s1 + 1 + j)); [rewrite app_nil_r; reflexivity|].
            intros i Hi. apply Bool.not_true_is_false. rewrite zin_spec. intros I. specialize (M1 _ I). unfold j in Hi. lia.
          + lia.
          + right. unfold j. lia.
          + unfold j. lia.
          + exact Oy.
          + intros s Hs I. pose proof I as I'. apply HR in I. destruct I as [I _]. split; [|].
            * destruct (H2 _ I) as [_ HH]. rewrite Nat2Z.id in HH. exact HH.
            * destruct (Hrs (s + 1)) as [Hr1 _]. apply Hr1. right. replace (Z.of_nat (s + 1) - 1)%Z with (Z.of_nat s) by lia. exact I'. }
      cbn [rbind]. rewrite Parts, !map_app. reflexivity.
    Qed.
  End Two.
End Measure.
