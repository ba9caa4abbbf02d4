(** * DmrgMain: histories of method calls *)
From Coq Require Import List ZArith Lia Permutation.
From Verif Require Import Prelude Res Algebra Tensor TensorFacts ListFacts BlockSparse Backends DecompFacts Mps MpsSpec MpsNcon MpsSplit MpsState MpsPosition
  MpsEnv Dmrg DmrgNcon DmrgSpec DmrgTriple DmrgMatvec DmrgFacts.
Import ListNotations.
Set Implicit Arguments.
Unset Strict Implicit.
Local Open Scope nat_scope.
Local Open Scope csr_scope.

Lemma firstn_le' A n m (l l' : list A) : firstn m l' = firstn m l -> n <= m -> firstn n l' = firstn n l.
Proof. intros H1 H2. exact (firstn_le H2 H1). Qed.
Lemma skipn_le' A n m (l l' : list A) : skipn m l' = skipn m l -> m <= n -> skipn n l' = skipn n l.
Proof. intros H1 H2. exact (skipn_le H2 H1). Qed.

Section Main.
  Context {R : cjr} {E : Type}.
  Notation tensor := (Tensor.tensor R).
  Variable iter : list Z -> list Z.
  Variable qrf : tensor -> res (tensor * tensor).
  Variable svdf : tensor -> res (tensor * list R * tensor).
  Variable nkeep : bool -> option nat -> option E -> list R -> nat.
  Variable err_ge1 : E -> bool.
  Variable nrm : tensor -> R.
  Variable rdiv : R -> R -> R.
  Variable eigs : (tensor -> res tensor) -> tensor -> res (R * tensor).
  Hypothesis iter_perm : forall l, Permutation (iter l) l.
  Hypothesis Hqr : qr_ok qrf.
  Hypothesis Hsvd : svd_ok svdf.
  Hypothesis Heig : forall A t e v, eigs A t = Ok (e, v) -> shape v = shape t /\ 0 < nprod (shape t).
  Variables (wl wr l r : nat) (lb rb : tensor).
  Hypothesis Slb : shape lb = [wl; l; l].
  Hypothesis Srb : shape rb = [wr; r; r].
  Notation sound := (sound wl wr l r lb rb).
  Notation ready := (@ready R).
  Notation dposition := (dposition iter qrf svdf nkeep err_ge1 nrm rdiv).
  Notation restart := (restart iter qrf svdf nkeep err_ge1 nrm rdiv).
  Notation optimize_1s := (optimize_1s iter qrf nrm rdiv eigs).
  Notation optimize_2s := (optimize_2s iter svdf nkeep nrm rdiv eigs).

  (** the boundaries are still stored *)
  Definition anchored (d : dmrg R) : Prop := (exists e, dget (lenvs d) 0 = Ok e) /\ (exists e, dget (renvs d) (length (tens (dmps d)) - 1) = Ok e).
  (** what a method may do to a sound state *)
  Definition step_ok (c : nat) (d : dmrg R) (c' : nat) (d' : dmrg R) : Prop :=
    sound c' d' /\ (ready c d -> ready c' d') /\ (anchored d -> anchored d') /\ (canonical (tens (dmps d)) c -> canonical (tens (dmps d')) c') /\
    dmpo d' = dmpo d /\ phys (tens (dmps d')) = phys (tens (dmps d)).

  Lemma step_intro c d c' d' : centre (dmps d') = Some c' -> c' < length (tens (dmps d')) -> chain l (tens (dmps d')) r ->
    ochain wl (dmpo d') (phys (tens (dmps d'))) wr ->
    (forall n e, n <= c' -> dget (lenvs d') n = Ok e -> lgood wl l lb (tens (dmps d')) (dmpo d') n e) ->
    (forall n e, c' <= n < length (tens (dmps d')) -> dget (renvs d') n = Ok e -> rgood wr r rb (tens (dmps d')) (dmpo d') n e) ->
    (ready c d -> forall n, n <= c' -> exists e, dget (lenvs d') n = Ok e) ->
    (ready c d -> forall n, c' <= n < length (tens (dmps d')) -> exists e, dget (renvs d') n = Ok e) ->
    (canonical (tens (dmps d)) c -> canonical (tens (dmps d')) c') -> dmpo d' = dmpo d -> phys (tens (dmps d')) = phys (tens (dmps d)) ->
    (anchored d -> exists e, dget (lenvs d') 0 = Ok e) -> (anchored d -> exists e, dget (renvs d') (length (tens (dmps d')) - 1) = Ok e) ->
    step_ok c d c' d'.
  Proof. intros. split; [constructor; assumption|]. split; [intros Rd; split; auto|]. split; [intros An; split; auto|]. auto. Qed.
  Lemma step_trans c d c1 d1 c2 d2 : step_ok c d c1 d1 -> step_ok c1 d1 c2 d2 -> step_ok c d c2 d2.
  Proof. intros (A1 & A2 & A3 & A4 & A5 & A6) (B1 & B2 & B3 & B4 & B5 & B6). 
    split; [exact B1|]. split; [auto|]. split; [auto|]. split; [auto|]. split; congruence. Qed.

  Lemma phys_len (ts ts' : list tensor) : phys ts' = phys ts -> length ts' = length ts.
  Proof. intros H. rewrite <- (phys_length ts), <- H, phys_length. reflexivity. Qed.

  Lemma position_ok c d site d' : sound c d -> dposition site d = Ok d' -> exists s, site = Z.of_nat s /\ step_ok c d s d'.
  Proof.
    intros Sd H. unfold Dmrg.dposition in H.
    destruct (negb (Z.of_nat (length (tens (dmps d))) <=? site)%Z) eqn:G1; [|discriminate]. destruct (negb (site <? 0)%Z) eqn:G2; [|discriminate].
    cbn [guard] in H. rewrite (s_centre Sd) in H. apply Bool.negb_true_iff in G1, G2. apply Z.leb_gt in G1. apply Z.ltb_ge in G2.
    exists (Z.to_nat site). split; [lia|]. assert (site = Z.of_nat (Z.to_nat site)) as Es by lia. generalize dependent (Z.to_nat site). intros s H Es.
    destruct (Nat.eqb_spec s c) as [Ec|N].
    { rewrite Ec in *. injection H as <-. split; [exact Sd|]. auto. }
    destruct (mps_position iter qrf svdf nkeep err_ge1 nrm rdiv (dmps d) site) as [[m z]| |] eqn:P; try discriminate. cbn [rbind fst] in H.
    unfold mps_position in P. rewrite Es in P. destruct (position_local (s_centre Sd) P) as [F1 F2].
    destruct (position_spec iter_perm Hqr Hsvd (s_chain Sd) (s_centre Sd) P) as (s0 & E0 & L0 & Cm & C' & P' & I1 & I2 & _). assert (s0 = s) as -> by lia.
    pose proof (phys_len P') as LN.
    assert (ochain wl (dmpo d) (phys (tens m)) wr) as O' by (rewrite P'; apply Sd).
    assert (canonical (tens (dmps d)) c -> canonical (tens m) s) as K.
    { rewrite !canonical_split. intros [A B]. split; [apply I1; exact (left_upto_mono (Nat.le_min_l c s) A) | apply I2; exact (right_from_mono (Nat.le_max_l c s) B)]. }
    destruct (Nat.ltb_spec c s) as [Lt|Ge].
    - destruct (add_lefts iter (tens m) (dmpo d) (seq c (s - c)) (lenvs d)) as [le| |] eqn:A; try discriminate. cbn [rbind fst snd] in H. injection H as <-.
      rewrite Nat.min_l, Nat.max_r in * by lia.
      destruct (dget (lenvs d) c) as [e| |] eqn:De.
      2,3: replace (s - c) with (S (s - c - 1)) in A by lia; cbn [seq add_lefts] in A; rewrite De in A; discriminate.
      assert (lgood wl l lb (tens m) (dmpo d) c e) as G by (apply (lgood_change F1), (s_left Sd); [lia | exact De]).
      destruct (add_lefts_spec iter_perm Slb C' O' (j := s - c) (c := c) (d := lenvs d) ltac:(lia) De G) as (d1 & A' & PA & QA).
      rewrite A in A'. injection A' as <-. replace (c + (s - c)) with s in * by lia.
      assert (forall n, n <= s -> dget (fold_left ddel (seq (s + 1) (length (tens (dmps d)) - s)) le) n = dget le n) as DL.
      { intros n Hn. rewrite dget_del_range. destruct (Nat.leb_spec (s + 1) n); [lia | reflexivity]. }
      assert (forall n, s <= n -> dget (fold_left ddel (seq 0 s) (renvs d)) n = dget (renvs d) n) as DR.
      { intros n Hn. rewrite dget_del_range. destruct (Nat.ltb_spec n (0 + s)); [lia | rewrite Bool.andb_false_r; reflexivity]. }
      apply step_intro; cbn [dmps dmpo lenvs renvs]; auto; try lia.
      + intros n x Hn Hx. rewrite DL in Hx by lia. destruct (Nat.le_gt_cases c n) as [H1|H1].
        * destruct (PA n) as (y & Hy & G'); [lia|]. rewrite Hx in Hy. injection Hy as <-. exact G'.
        * rewrite QA in Hx by lia. apply (lgood_change (firstn_le' (n := n) F1 ltac:(lia))), (s_left Sd); [lia | exact Hx].
      + intros n x Hn Hx. rewrite DR in Hx by lia. rewrite LN in Hn.
        apply (rgood_change (skipn_le' (n := n + 1) F2 ltac:(lia))), (s_right Sd); [lia | exact Hx].
      + intros H n Hn. rewrite DL by lia. destruct (Nat.le_gt_cases c n) as [H1|H1].
        * destruct (PA n) as (y & Hy & _); [lia|]. exists y. exact Hy.
        * rewrite QA by lia. apply (proj1 H). lia.
      + intros H n Hn. rewrite DR by lia. rewrite LN in Hn. apply (proj2 H). lia.
      + intros [H _]. rewrite DL, QA by lia. exact H.
      + intros [_ H]. rewrite LN, DR by lia. exact H.
    - destruct (add_rights iter (tens m) (dmpo d) (rev (seq s (c - s))) (renvs d)) as [re| |] eqn:A; try discriminate. cbn [rbind fst snd] in H. injection H as <-.
      rewrite Nat.min_r, Nat.max_l in * by lia.
      destruct (dget (renvs d) c) as [e| |] eqn:De.
      2,3: replace (c - s) with (S (c - s - 1)) in A by lia; rewrite MpsPosition.rev_seq_S in A; cbn [add_rights] in A;
           replace (s + (c - s - 1) + 1) with c in A by lia; rewrite De in A; discriminate.
      pose proof (s_lt Sd) as Lc.
      assert (rgood wr r rb (tens m) (dmpo d) c e) as G by (apply (rgood_change F2), (s_right Sd); [lia | exact De]).
      destruct (add_rights_spec (rb := rb) iter_perm C' O' (j := c - s) (s := s) (d := renvs d) (e := e) ltac:(lia)) as (d1 & A' & PA & QA);
        [replace (s + (c - s)) with c by lia; assumption | replace (s + (c - s)) with c by lia; assumption |].
      rewrite A in A'. injection A' as <-. replace (s + (c - s)) with c in * by lia.
      assert (forall n, n <= s -> dget (fold_left ddel (seq (s + 1) (length (tens (dmps d)) - s)) (lenvs d)) n = dget (lenvs d) n) as DL.
      { intros n Hn. rewrite dget_del_range. destruct (Nat.leb_spec (s + 1) n); [lia | reflexivity]. }
      assert (forall n, s <= n -> dget (fold_left ddel (seq 0 s) re) n = dget re n) as DR.
      { intros n Hn. rewrite dget_del_range. destruct (Nat.ltb_spec n (0 + s)); [lia | rewrite Bool.andb_false_r; reflexivity]. }
      apply step_intro; cbn [dmps dmpo lenvs renvs]; auto; try lia.
      + intros n x Hn Hx. rewrite DL in Hx by lia. apply (lgood_change (firstn_le' (n := n) F1 ltac:(lia))), (s_left Sd); [lia | exact Hx].
      + intros n x Hn Hx. rewrite DR in Hx by lia. rewrite LN in Hn. destruct (Nat.le_gt_cases n c) as [H1|H1].
        * destruct (PA n) as (y & Hy & G'); [lia|]. rewrite Hx in Hy. injection Hy as <-. exact G'.
        * rewrite QA in Hx by lia. apply (rgood_change (skipn_le' (n := n + 1) F2 ltac:(lia))), (s_right Sd); [lia | exact Hx].
      + intros H n Hn. rewrite DL by lia. apply (proj1 H). lia.
      + intros H n Hn. rewrite DR by lia. rewrite LN in Hn. destruct (Nat.le_gt_cases n c) as [H1|H1].
        * destruct (PA n) as (y & Hy & _); [lia|]. exists y. exact Hy.
        * rewrite QA by lia. apply (proj2 H). lia.
      + intros [H _]. rewrite DL by lia. exact H.
      + intros [_ H]. rewrite LN, DR by lia. destruct (Nat.eq_dec c (length (tens (dmps d)) - 1)) as [<-|H1]; [|rewrite QA by lia; exact H].
        destruct (PA c) as (y & Hy & _); [lia|]. exists y. exact Hy.
  Qed.

  (** ** recomputation *)
  Lemma left_envs_ok c d d' : sound c d -> compute_left_envs iter d = Ok d' -> step_ok c d c d' /\ (forall n, n <= c -> exists e, dget (lenvs d') n = Ok e) /\ renvs d' = renvs d.
  Proof.
    intros Sd H. unfold compute_left_envs in H. rewrite (s_centre Sd) in H. destruct (dget (lenvs d) 0) as [e| |] eqn:De; try discriminate. cbn [rbind] in H.
    assert (lgood wl l lb (tens (dmps d)) (dmpo d) 0 e) as G by (apply (s_left Sd); [lia | exact De]). pose proof (s_lt Sd) as Lc.
    destruct (add_lefts_spec iter_perm Slb (s_chain Sd) (s_ochain Sd) (j := c) (c := 0) (d := [(0, e)]) (e := e) ltac:(lia) eq_refl G) as (d1 & A & PA & QA).
    rewrite A in H. cbn [rbind] in H. injection H as <-. cbn [Nat.add] in *.
    assert (forall n, n <= c -> exists e, dget d1 n = Ok e /\ lgood wl l lb (tens (dmps d)) (dmpo d) n e) as PA' by (intros n Hn; apply PA; lia).
    split; [apply step_intro; cbn [dmps dmpo lenvs renvs]; auto; try apply Sd | split; [|reflexivity]].
    - intros n x Hn Hx. destruct (PA' n Hn) as (y & Hy & G'). rewrite Hx in Hy. injection Hy as <-. exact G'.
    - intros H n Hn. destruct (PA' n Hn) as (y & Hy & _). exists y. exact Hy.
    - intros H. apply (proj2 H).
    - intros _. destruct (PA' 0) as (y & Hy & _); [lia|]. exists y. exact Hy.
    - intros [_ H]. exact H.
    - intros n Hn. destruct (PA' n Hn) as (y & Hy & _). exists y. exact Hy.
  Qed.
  Lemma right_envs_ok c d d' : sound c d -> compute_right_envs iter d = Ok d' -> step_ok c d c d' /\ (forall n, c <= n < length (tens (dmps d)) -> exists e, dget (renvs d') n = Ok e) /\ lenvs d' = lenvs d.
  Proof.
    intros Sd H. unfold compute_right_envs in H. rewrite (s_centre Sd) in H. set (N := length (tens (dmps d))) in *. pose proof (s_lt Sd) as Lc. fold N in Lc.
    destruct (dget (renvs d) (N - 1)) as [e| |] eqn:De; try discriminate. cbn [rbind] in H.
    assert (rgood wr r rb (tens (dmps d)) (dmpo d) (N - 1) e) as G by (apply (s_right Sd); [fold N; lia | exact De]).
    destruct (add_rights_spec (rb := rb) iter_perm (s_chain Sd) (s_ochain Sd) (j := N - 1 - c) (s := c) (d := [(N - 1, e)]) (e := e)) as (d1 & A & PA & QA);
      [fold N; lia | replace (c + (N - 1 - c)) with (N - 1) by lia; unfold dget; cbn; rewrite Nat.eqb_refl; reflexivity | replace (c + (N - 1 - c)) with (N - 1) by lia; exact G |].
    rewrite A in H. cbn [rbind] in H. injection H as <-.
    assert (forall n, c <= n < N -> exists e, dget d1 n = Ok e /\ rgood wr r rb (tens (dmps d)) (dmpo d) n e) as PA' by (intros n Hn; apply PA; lia).
    split; [apply step_intro; cbn [dmps dmpo lenvs renvs]; auto; try apply Sd | split; [|reflexivity]].
    - intros n x Hn Hx. destruct (PA' n Hn) as (y & Hy & G'). rewrite Hx in Hy. injection Hy as <-. exact G'.
    - intros H. apply (proj1 H).
    - intros H n Hn. destruct (PA' n Hn) as (y & Hy & _). exists y. exact Hy.
    - intros [H _]. exact H.
    - intros _. fold N. destruct (PA' (N - 1)) as (y & Hy & _); [lia|]. exists y. exact Hy.
    - intros n Hn. destruct (PA' n Hn) as (y & Hy & _). exists y. exact Hy.
  Qed.

  (** ** local updates *)
  Lemma nth_set_eq A i (v : A) ts : i < length ts -> nth_error (set_nth i v ts) i = Some v.
  Proof. revert i. induction ts as [|x ts IH]; intros [|i] H; cbn in *; try lia; [reflexivity|]. apply IH. lia. Qed.
  Lemma nth_set_ne A i j (v : A) ts : i <> j -> nth_error (set_nth i v ts) j = nth_error ts j.
  Proof. revert i j. induction ts as [|x ts IH]; intros [|i] [|j] H; cbn; try reflexivity; try lia. apply IH. lia. Qed.

  Lemma set_pair (ts : list tensor) c t u q w : nth_error ts c = Some t -> nth_error ts (c + 1) = Some u ->
    exists p s, ts = p ++ t :: u :: s /\ length p = c /\ set_nth (c + 1) w (set_nth c q ts) = p ++ q :: w :: s /\ set_nth c q (set_nth (c + 1) w ts) = p ++ q :: w :: s.
  Proof.
    intros H1 H2. destruct (nth_error_split4 H1 H2) as (p & s & -> & Lp). exists p, s. split; [reflexivity|]. split; [exact Lp|]. rewrite <- Lp. split.
    - rewrite set_nth_app. replace (length p + 1) with (length (p ++ [q])) by (rewrite app_length; reflexivity).
      change (p ++ q :: u :: s) with (p ++ [q] ++ u :: s). rewrite app_assoc, set_nth_app, <- app_assoc. reflexivity.
    - change (p ++ t :: u :: s) with (p ++ [t] ++ u :: s). rewrite app_assoc.
      replace (length p + 1) with (length (p ++ [t])) by (rewrite app_length; reflexivity). rewrite set_nth_app, <- app_assoc. cbn [app]. apply set_nth_app.
  Qed.
  Lemma pair_chain (ts ts' : list tensor) c t u q w m d k e j kk p s :
    chain l ts r -> shape t = [m; d; k] -> shape u = [k; e; j] -> shape q = [m; d; kk] -> shape w = [kk; e; j] ->
    ts = p ++ t :: u :: s -> length p = c -> ts' = p ++ q :: w :: s -> chain l ts' r /\ phys ts' = phys ts.
  Proof.
    intros C St Su Sq Sw -> Lp ->. apply chain_app in C. destruct C as (m' & C1 & (d0 & k0 & St' & e0 & j0 & Su' & C2)). split.
    - rewrite St in St'. injection St' as <- <- <-. rewrite Su in Su'. injection Su' as <- <-. apply chain_app. exists m. split; [exact C1|]. exists d, kk. split; [exact Sq|]. exists e, j. auto.
    - rewrite !phys_app. f_equal. cbn. rewrite St, Su, Sq, Sw. reflexivity.
  Qed.
  Lemma canonical_pair_right (p s : list tensor) t u q w c : length p = c -> left_iso q -> canonical (p ++ t :: u :: s) c -> canonical (p ++ q :: w :: s) (c + 1).
  Proof.
    intros Lp I K i x Hx. destruct (Nat.lt_ge_cases i c) as [H1|H1].
    - rewrite nth_error_app1 in Hx by lia. split; [intros _|lia]. apply (K i x); [rewrite nth_error_app1 by lia; exact Hx | exact H1].
    - rewrite nth_error_app2 in Hx by lia. destruct (i - length p) as [|[|k]] eqn:Ei; cbn in Hx.
      + injection Hx as <-. split; [intros _; exact I | lia].
      + split; lia.
      + split; [lia|]. intros _. apply (K i x); [rewrite nth_error_app2, Ei by lia; exact Hx | lia].
  Qed.
  Lemma canonical_pair_left (p s : list tensor) t u q w c : length p = c -> right_iso w -> canonical (p ++ t :: u :: s) (c + 1) -> canonical (p ++ q :: w :: s) c.
  Proof.
    intros Lp I K i x Hx. destruct (Nat.lt_ge_cases i c) as [H1|H1].
    - rewrite nth_error_app1 in Hx by lia. split; [intros _|lia]. apply (K i x); [rewrite nth_error_app1 by lia; exact Hx | lia].
    - rewrite nth_error_app2 in Hx by lia. destruct (i - length p) as [|[|k]] eqn:Ei; cbn in Hx.
      + split; lia.
      + injection Hx as <-. split; [lia | intros _; exact I].
      + split; [lia|]. intros _. apply (K i x); [rewrite nth_error_app2, Ei by lia; exact Hx | lia].
  Qed.

  Lemma update_right c d t u q w L W e' m dd k ee j kk :
    sound c d -> nth_error (tens (dmps d)) c = Some t -> nth_error (tens (dmps d)) (c + 1) = Some u ->
    shape t = [m; dd; k] -> shape u = [k; ee; j] -> shape q = [m; dd; kk] -> shape w = [kk; ee; j] -> left_iso q ->
    dget (lenvs d) c = Ok L -> nth_error (dmpo d) c = Some W -> add_left_layer iter L q W = Ok e' ->
    step_ok c d (c + 1) (DMRG (MPS (set_nth (c + 1) w (set_nth c q (tens (dmps d)))) (Some (c + 1))) (dmpo d) (dset (lenvs d) (c + 1) e') (renvs d)).
  Proof.
    intros Sd Ht Hu St Su Sq Sw I HL HW Ee. set (ts := tens (dmps d)) in *. destruct (set_pair q w Ht Hu) as (p & s & E1 & Lp & E2 & _).
    destruct (pair_chain (s_chain Sd) St Su Sq Sw E1 Lp E2) as [C' P']. set (ts' := set_nth (c + 1) w (set_nth c q ts)) in *.
    assert (firstn c ts' = firstn c ts) as F1 by (unfold ts'; rewrite !firstn_set_nth by lia; reflexivity).
    assert (skipn (c + 2) ts' = skipn (c + 2) ts) as F2 by (unfold ts'; rewrite !skipn_set_nth by lia; reflexivity).
    assert (ochain wl (dmpo d) (phys ts') wr) as O' by (rewrite P'; apply Sd).
    pose proof (phys_len P') as LN. fold ts in LN.
    assert (c + 1 < length ts) as Lc by (apply nth_error_Some; congruence).
    assert (lgood wl l lb ts' (dmpo d) (c + 1) e') as G.
    { destruct (left_step iter_perm Slb C' O' (n := c) (e := L) (t := q) (W := W)) as (e'' & E'' & G); auto.
      - apply (lgood_change F1), (s_left Sd); [lia | exact HL].
      - rewrite E2, nth_error_app2, Lp, Nat.sub_diag by lia. reflexivity.
      - rewrite Ee in E''. injection E'' as <-. exact G. }
    apply step_intro; cbn [dmps dmpo lenvs renvs tens centre]; auto; try lia.
    - intros n x Hn Hx. rewrite dget_dset in Hx. destruct (Nat.eqb_spec n (c + 1)) as [->|N]; [injection Hx as <-; exact G|].
      apply (lgood_change (firstn_le' (n := n) F1 ltac:(lia))), (s_left Sd); [lia | exact Hx].
    - intros n x Hn Hx. apply (rgood_change (skipn_le' (n := n + 1) F2 ltac:(lia))), (s_right Sd); [fold ts; lia | exact Hx].
    - intros H n Hn. rewrite dget_dset. destruct (Nat.eqb_spec n (c + 1)) as [->|N]; [exists e'; reflexivity|]. apply (proj1 H). lia.
    - intros H n Hn. apply (proj2 H). fold ts. lia.
    - fold ts. rewrite E2, E1 at 1. apply canonical_pair_right; assumption.
    - intros [H _]. rewrite dget_dset. destruct (Nat.eqb_spec 0 (c + 1)); [lia | exact H].
    - intros [_ H]. rewrite LN. exact H.
  Qed.
  Lemma update_left c d t u q w Rr W e' m dd k ee j kk : 0 < c ->
    sound c d -> nth_error (tens (dmps d)) (c - 1) = Some u -> nth_error (tens (dmps d)) c = Some t ->
    shape u = [m; dd; k] -> shape t = [k; ee; j] -> shape w = [m; dd; kk] -> shape q = [kk; ee; j] -> right_iso q ->
    dget (renvs d) c = Ok Rr -> nth_error (dmpo d) c = Some W -> add_right_layer iter Rr q W = Ok e' ->
    step_ok c d (c - 1) (DMRG (MPS (set_nth (c - 1) w (set_nth c q (tens (dmps d)))) (Some (c - 1))) (dmpo d) (lenvs d) (dset (renvs d) (c - 1) e')).
  Proof.
    intros Pc Sd Hu Ht Su St Sw Sq I HR HW Ee. set (ts := tens (dmps d)) in *. set (b := c - 1) in *. assert (c = b + 1) as Ec by (unfold b; lia). clearbody b. subst c.
    destruct (set_pair w q Hu Ht) as (p & s & E1 & Lp & _ & E2).
    destruct (pair_chain (s_chain Sd) Su St Sw Sq E1 Lp E2) as [C' P']. set (ts' := set_nth b w (set_nth (b + 1) q ts)) in *.
    assert (firstn b ts' = firstn b ts) as F1 by (unfold ts'; rewrite !firstn_set_nth by lia; reflexivity).
    assert (skipn (b + 2) ts' = skipn (b + 2) ts) as F2 by (unfold ts'; rewrite !skipn_set_nth by lia; reflexivity).
    assert (ochain wl (dmpo d) (phys ts') wr) as O' by (rewrite P'; apply Sd).
    pose proof (phys_len P') as LN. fold ts in LN.
    assert (b + 1 < length ts) as Lc by (apply nth_error_Some; congruence).
    assert (rgood wr r rb ts' (dmpo d) b e') as G.
    { destruct (right_step (rb := rb) iter_perm (n := b) (e := Rr) (t := q) (W := W) C' O') as (e'' & E'' & G); auto.
      - apply (rgood_change (skipn_le' (n := b + 1 + 1) F2 ltac:(lia))), (s_right Sd); [fold ts; lia | exact HR].
      - rewrite E2, nth_error_app2, Lp by lia. replace (b + 1 - b) with 1 by lia. reflexivity.
      - rewrite Ee in E''. injection E'' as <-. exact G. }
    apply step_intro; cbn [dmps dmpo lenvs renvs tens centre]; auto; try lia.
    - intros n x Hn Hx. apply (lgood_change (firstn_le' (n := n) F1 ltac:(lia))), (s_left Sd); [lia | exact Hx].
    - intros n x Hn Hx. rewrite dget_dset in Hx. destruct (Nat.eqb_spec n b) as [->|N]; [injection Hx as <-; exact G|].
      apply (rgood_change (skipn_le' (n := n + 1) F2 ltac:(lia))), (s_right Sd); [fold ts; lia | exact Hx].
    - intros H n Hn. apply (proj1 H). lia.
    - intros H n Hn. rewrite dget_dset. destruct (Nat.eqb_spec n b) as [->|N]; [exists e'; reflexivity|]. apply (proj2 H). fold ts. lia.
    - fold ts. rewrite E2, E1 at 1. apply canonical_pair_left; assumption.
    - intros [H _]. exact H.
    - intros [_ H]. rewrite LN, dget_dset. destruct (Nat.eqb_spec (length ts - 1) b); [lia | exact H].
  Qed.
  (** the centre tensor replaced by one of the same shape *)
  Lemma update_centre c d t q : sound c d -> nth_error (tens (dmps d)) c = Some t -> shape q = shape t ->
    step_ok c d c (DMRG (MPS (set_nth c q (tens (dmps d))) (Some c)) (dmpo d) (lenvs d) (renvs d)).
  Proof.
    intros Sd Ht Sq. set (ts := tens (dmps d)) in *. destruct (nth_error_split3 Ht) as (p & s & E1 & Lp). pose proof (s_chain Sd) as C. fold ts in C.
    assert (set_nth c q ts = p ++ q :: s) as E2 by (rewrite E1, <- Lp; apply set_nth_app).
    assert (chain l (set_nth c q ts) r) as C'.
    { rewrite E2. rewrite E1 in C. apply chain_app in C. destruct C as (m & C1 & (dd & k & St & C2)). apply chain_app. exists m. split; [exact C1|]. exists dd, k. split; [congruence | exact C2]. }
    assert (phys (set_nth c q ts) = phys ts) as P' by (rewrite E2, E1, !phys_app; cbn; rewrite Sq; reflexivity).
    assert (length (set_nth c q ts) = length ts) as LN by apply set_nth_length.
    apply step_intro; cbn [dmps dmpo lenvs renvs tens centre]; auto.
    - rewrite LN. apply Sd.
    - rewrite P'. apply Sd.
    - intros n x Hn Hx. apply (@lgood_change _ wl l lb ts); [apply firstn_set_nth; lia|]. apply (s_left Sd); assumption.
    - intros n x Hn Hx. apply (@rgood_change _ wr r rb ts); [apply skipn_set_nth; lia|]. apply (s_right Sd); [fold ts; lia | assumption].
    - intros H. apply (proj1 H).
    - intros H n Hn. apply (proj2 H). fold ts. lia.
    - intros H i x Hx. destruct (Nat.eq_dec i c) as [->|N]; [split; lia|]. rewrite nth_set_ne in Hx by lia. apply (H i x Hx).
    - intros [H _]. exact H.
    - intros [_ H]. rewrite LN. exact H.
  Qed.

  Lemma sound_nth c d i : sound c d -> i < length (tens (dmps d)) -> exists t m dd k, nth_error (tens (dmps d)) i = Some t /\ shape t = [m; dd; k].
  Proof.
    intros Sd H. destruct (nth_error (tens (dmps d)) i) as [t|] eqn:Et; [|apply nth_error_None in Et; lia].
    destruct (chain_shape (s_chain Sd) Et) as (m & dd & k & St). exists t, m, dd, k. auto.
  Qed.
  Lemma get_inv A (ts : list A) n x : match nth_error ts n with Some t => Ok t | None => Raise end = Ok x -> nth_error ts n = Some x.
  Proof. destruct (nth_error ts n); [intros [= ->]; reflexivity | discriminate]. Qed.
  Lemma neighbours (ts : list tensor) a b c t u m d k : chain a ts b -> nth_error ts c = Some t -> nth_error ts (c + 1) = Some u -> shape t = [m; d; k] ->
    exists e j, shape u = [k; e; j].
  Proof.
    intros C Ht Hu St. destruct (nth_error_split4 Ht Hu) as (p & s & -> & _). apply chain_app in C. destruct C as (m' & _ & (d0 & k0 & St' & e0 & j0 & Su & _)).
    rewrite St in St'. injection St' as _ _ ->. exists e0, j0. exact Su.
  Qed.
  Lemma last_dim (ts : list tensor) a b t m d k : chain a ts b -> nth_error ts (length ts - 1) = Some t -> shape t = [m; d; k] -> k = b.
  Proof.
    intros C Ht St. destruct (chain_cut C Ht) as (m' & d' & k' & _ & St' & C2). rewrite St in St'. injection St' as _ _ ->.
    rewrite skipn_all2 in C2 by lia. exact C2.
  Qed.
  Lemma first_dim (ts : list tensor) a b t m d k : chain a ts b -> nth_error ts 0 = Some t -> shape t = [m; d; k] -> m = a.
  Proof. intros C Ht St. destruct ts as [|x ts]; [discriminate|]. injection Ht as ->. destruct C as (d' & k' & St' & _). congruence. Qed.

  Definition moved (right : bool) (N c : nat) : nat := if right then (if c <? N - 1 then c + 1 else c) else c - 1.

  Lemma optimize_1s_ok c d right d' e : l <= 1 -> r <= 1 -> sound c d -> optimize_1s right d = Ok (d', e) ->
    step_ok c d (moved right (length (tens (dmps d))) c) d'.
  Proof.
    intros Ll Lr Sd H. unfold Dmrg.optimize_1s in H. rewrite (s_centre Sd) in H. pose proof (s_lt Sd) as Lc. set (ts := tens (dmps d)) in *.
    destruct (dget (lenvs d) c) as [L| |] eqn:HL; try discriminate. cbn [rbind] in H.
    destruct (dget (renvs d) c) as [Rr| |] eqn:HR; try discriminate. cbn [rbind] in H.
    destruct (get (dmpo d) c) as [W| |] eqn:HW; try discriminate. cbn [rbind] in H. apply get_inv in HW.
    destruct (sound_nth Sd Lc) as (t & m & dd & k & Ht & St). fold ts in Ht. unfold get at 1 in H. rewrite Ht in H. cbn [rbind] in H.
    destruct (eigs (fun x => single_site_matvec iter x L W Rr) t) as [[en v]| |] eqn:Ev; try discriminate. cbn [rbind] in H.
    destruct (Heig Ev) as [Sv Pv]. set (g := tdiv rdiv v (nrm v)) in *. assert (shape g = [m; dd; k]) as Sg by (cbn; rewrite Sv; exact St).
    assert (0 < m /\ 0 < dd /\ 0 < k) as (Pm & Pd & Pk). { rewrite St in Pv. cbn in Pv. destruct m, dd, k; cbn in Pv; lia. }
    unfold moved. destruct right.
    - destruct (qr_at qrf g 2) as [[q rr]| |] eqn:F; try discriminate. cbn [rbind] in H.
      destruct (@qr_at_spec _ qrf Hqr g q rr [m; dd] [k] 2 Sg eq_refl F) as (Sq & Sr & I & _). cbn [app] in Sq. set (kk := Nat.min (nprod [m; dd]) (nprod [k])) in *.
      destruct (Nat.ltb_spec c (length ts - 1)) as [Lt|Ge].
      + destruct (sound_nth (i := c + 1) Sd) as (u & m2 & ee & j & Hu & Su0); [fold ts; lia|]. fold ts in Hu.
        destruct (neighbours (s_chain Sd) Ht Hu St) as (ee' & j' & Su). clear Su0.
        unfold get in H. rewrite nth_set_ne, Hu in H by lia. cbn [rbind] in H.
        destruct (@ncon_mt R iter iter_perm rr u kk k ee' j' Sr Su) as (w & W1 & Sw & _). rewrite W1 in H. cbn [rbind] in H.
        destruct (add_left_layer iter L q W) as [L'| |] eqn:EL; try discriminate. cbn [rbind] in H. injection H as <- _.
        exact (update_right Sd Ht Hu St Su Sq Sw (cols_iso_left Sq I) HL HW EL).
      + injection H as <- _. apply (update_centre (t := t) Sd Ht). rewrite Sq, St.
        assert (c = length ts - 1) as Ecc by lia. rewrite Ecc in Ht. pose proof (last_dim (s_chain Sd) Ht St) as Ek.
        unfold kk. cbn. replace (Nat.min (m * (dd * 1)) (k * 1)) with k; [reflexivity|]. destruct m, dd, k; cbn; nia.
    - destruct (rq_at qrf g 1) as [[rr q]| |] eqn:F; try discriminate. cbn [rbind] in H.
      destruct (@rq_at_spec _ qrf Hqr g q rr [m] [dd; k] 1 Sg eq_refl F) as (Sr & Sq & I & _). cbn [app] in Sr. set (kk := Nat.min (nprod [dd; k]) (nprod [m])) in *.
      destruct (Nat.ltb_spec 0 c) as [Lt|Ge].
      + destruct (sound_nth (i := c - 1) Sd) as (u & m2 & ee & j & Hu & Su); [fold ts; lia|]. fold ts in Hu.
        assert (nth_error ts (c - 1 + 1) = Some t) as Ht' by (replace (c - 1 + 1) with c by lia; exact Ht).
        destruct (neighbours (s_chain Sd) Hu Ht' Su) as (ee' & j' & St'). rewrite St in St'. injection St' as -> <- <-.
        unfold get in H. rewrite nth_set_ne, Hu in H by lia. cbn [rbind] in H.
        destruct (@ncon_tm R iter iter_perm u rr m2 ee j kk Su Sr) as (w & W1 & Sw & _). rewrite W1 in H. cbn [rbind] in H.
        destruct (add_right_layer iter Rr q W) as [L'| |] eqn:EL; try discriminate. cbn [rbind] in H. injection H as <- _.
        exact (update_left Lt Sd Hu Ht Su St Sw Sq (rows_iso_right Sq I) HR HW EL).
      + injection H as <- _. replace (c - 1) with c by lia. apply (update_centre (t := t) Sd Ht). rewrite Sq, St.
        assert (c = 0) as -> by lia. pose proof (first_dim (s_chain Sd) Ht St) as Em.
        unfold kk. cbn. replace (Nat.min (dd * (k * 1)) (m * 1)) with m; [reflexivity|]. destruct m, dd, k; cbn; nia.
  Qed.

  Lemma optimize_2s_ok c d D right d' e : sound c d -> optimize_2s D right d = Ok (d', e) ->
    step_ok c d (moved right (length (tens (dmps d))) c) d'.
  Proof.
    intros Sd H. unfold Dmrg.optimize_2s in H. rewrite (s_centre Sd) in H. pose proof (s_lt Sd) as Lc. set (ts := tens (dmps d)) in *.
    destruct (right || (0 <? c)) eqn:G; [|discriminate]. cbn [guard] in H. set (s := if right then c else c - 1) in *.
    destruct (get ts s) as [t1| |] eqn:H1; try discriminate. cbn [rbind] in H. apply get_inv in H1.
    destruct (get ts (s + 1)) as [t2| |] eqn:H2; try discriminate. cbn [rbind] in H. apply get_inv in H2.
    destruct (chain_shape (s_chain Sd) H1) as (m & dd & k & S1). destruct (neighbours (s_chain Sd) H1 H2 S1) as (ee & j & S2).
    destruct (ncon_bond iter_perm S1 S2) as (b & B1 & Sb & _). rewrite B1 in H. cbn [rbind] in H.
    destruct (dget (lenvs d) s) as [L| |] eqn:HL; try discriminate. cbn [rbind] in H.
    destruct (get (dmpo d) s) as [W1| |] eqn:HW1; try discriminate. cbn [rbind] in H. apply get_inv in HW1.
    destruct (get (dmpo d) (s + 1)) as [W2| |] eqn:HW2; try discriminate. cbn [rbind] in H. apply get_inv in HW2.
    destruct (dget (renvs d) (s + 1)) as [Rr| |] eqn:HR; try discriminate. cbn [rbind] in H.
    destruct (eigs (fun x => two_site_matvec iter x L W1 W2 Rr) b) as [[en v]| |] eqn:Ev; try discriminate. cbn [rbind] in H.
    destruct (Heig Ev) as [Sv _]. set (g := tdiv rdiv v (nrm v)) in *. assert (shape g = [m; dd; ee; j]) as Sg by (cbn; rewrite Sv; exact Sb).
    destruct (svd_at svdf nkeep true D None g 2) as [[[[u sv] vh] tw]| |] eqn:F; try discriminate. cbn [rbind] in H.
    destruct (@svd_at_spec _ _ svdf nkeep Hsvd g u vh sv tw true D None [m; dd] [ee; j] 2 Sg eq_refl F) as (Su & Svh & I1 & I2 & _). cbn [app] in Su.
    assert (shape (diagflat sv) = [length sv; length sv]) as Sdg by reflexivity.
    assert (s + 1 < length ts) as Ls by (apply nth_error_Some; congruence).
    unfold moved. destruct right.
    - unfold s in *. clear s. destruct (Nat.ltb_spec c (length ts - 1)) as [_|Ge]; [|lia].
      destruct (@ncon_mt R iter iter_perm _ _ _ _ _ _ Sdg Svh) as (w & Ew & Sw & _). rewrite Ew in H. cbn [rbind] in H.
      destruct (add_left_layer iter L u W1) as [L'| |] eqn:EL; try discriminate. cbn [rbind] in H. injection H as <- _.
      apply (update_right Sd H1 H2 S1 S2 Su Sw (cols_iso_left Su I1) HL HW1 EL).
    - unfold s in *. clear s. cbn [orb] in G. apply Nat.ltb_lt in G.
      destruct (@ncon_tm R iter iter_perm _ _ _ _ _ _ Su Sdg) as (w & Ew & Sw & _). rewrite Ew in H. cbn [rbind] in H.
      destruct (add_right_layer iter Rr vh W2) as [R'| |] eqn:EL; try discriminate. cbn [rbind] in H. injection H as <- _.
      replace (c - 1 + 1) with c in * by lia.
      apply (update_left G Sd H1 H2 S1 S2 Sw Svh (rows_iso_right Svh I2) HR HW2 EL).
  Qed.

  Lemma restart_ok c d d' : sound c d -> restart d = Ok d' -> step_ok c d 0 d' /\ ((exists e, dget (lenvs d) 0 = Ok e) -> ready 0 d').
  Proof.
    intros Sd H. unfold Dmrg.restart in H. destruct (mps_position iter qrf svdf nkeep err_ge1 nrm rdiv (dmps d) 0%Z) as [[m z]| |] eqn:P; try discriminate. cbn [rbind fst] in H.
    unfold mps_position in P. change 0%Z with (Z.of_nat 0) in P. destruct (position_local (s_centre Sd) P) as [F1 F2].
    destruct (position_spec iter_perm Hqr Hsvd (s_chain Sd) (s_centre Sd) P) as (s0 & E0 & L0 & Cm & C' & P' & I1 & I2 & _). assert (s0 = 0) as -> by lia.
    rewrite Nat.max_0_r, Nat.min_0_r in *. pose proof (phys_len P') as LN. pose proof (s_lt Sd) as Lc.
    set (d1 := DMRG m (dmpo d) (lenvs d) (renvs d)) in *.
    (* the right environments left of the old centre are not known to be right: only the last one is used *)
    unfold compute_right_envs in H. cbn [d1 dmps dmpo lenvs renvs] in H. rewrite Cm in H. set (N := length (tens m)) in *.
    destruct (dget (renvs d) (N - 1)) as [e| |] eqn:De; try discriminate. cbn [rbind] in H. rewrite Nat.sub_0_r in H.
    assert (ochain wl (dmpo d) (phys (tens m)) wr) as O' by (rewrite P'; apply Sd).
    assert (rgood wr r rb (tens m) (dmpo d) (N - 1) e) as G.
    { apply (rgood_change (skipn_le' (n := N - 1 + 1) F2 ltac:(lia))), (s_right Sd); [lia | exact De]. }
    destruct (add_rights_spec (rb := rb) iter_perm C' O' (j := N - 1) (s := 0) (d := [(N - 1, e)]) (e := e)) as (re & A & PA & QA);
      [fold N; lia | cbn [Nat.add]; unfold dget; cbn; rewrite Nat.eqb_refl; reflexivity | exact G |].
    rewrite A in H. cbn [rbind] in H. injection H as <-. cbn [Nat.add] in *.
    assert (forall n, n < N -> exists e, dget re n = Ok e /\ rgood wr r rb (tens m) (dmpo d) n e) as PA' by (intros n Hn; apply PA; lia).
    assert (forall n, 0 <= n < N -> exists e, dget re n = Ok e) as RR by (intros n Hn; destruct (PA' n) as (y & Hy & _); [lia | exists y; exact Hy]).
    split; [|intros (e0 & H0); split; cbn [dmps dmpo lenvs renvs]; [intros n Hn; replace n with 0 by lia; exists e0; exact H0 | exact RR]].
    apply step_intro; cbn [dmps dmpo lenvs renvs]; auto; try lia.
    - intros n x Hn Hx. apply (lgood_change (ts := tens (dmps d))); [replace n with 0 by lia; reflexivity|]. apply (s_left Sd); [lia | exact Hx].
    - intros n x Hn Hx. destruct (PA' n) as (y & Hy & G'); [fold N in Hn; lia|]. rewrite Hx in Hy. injection Hy as <-. exact G'.
    - intros H n Hn. apply (proj1 H). lia.
    - rewrite !canonical_split. intros [A1 B1]. split; [apply I1; exact (left_upto_mono (Nat.le_0_l c) A1) | exact (I2 B1)].
    - intros [H _]. exact H.
    - intros _. fold N. apply RR. lia.
  Qed.
End Main.
