(** * MpsCanon: totality of [position]; [__init__] and [canonicalize] *)
From Coq Require Import List ZArith Lia Permutation.
From Verif Require Import Prelude Res Algebra Tensor TensorFacts ListFacts Ncon BlockSparse Backends DecompFacts
  Mps MpsSpec MpsNcon MpsSplit MpsState MpsPosition.
Import ListNotations.
Set Implicit Arguments.
Unset Strict Implicit.
Local Open Scope nat_scope.
Local Open Scope csr_scope.

Section Canon.
  Context {R : cjr} {E : Type}.
  Add Ring Rring : (rsr R).
  Notation tensor := (Tensor.tensor R).
  Variable iter : list Z -> list Z.
  Variable qrf : tensor -> res (tensor * tensor).
  Variable svdf : tensor -> res (tensor * list R * tensor).
  Variable nkeep : bool -> option nat -> option E -> list R -> nat.
  Variable err_ge1 : E -> bool.
  Variable nrm : tensor -> R.
  Variable rdiv : R -> R -> R.
  Hypothesis iter_perm : forall l, Permutation (iter l) l.
  Hypothesis Hqr : qr_ok qrf.
  Hypothesis Hsvd : svd_ok svdf.

  Section Total.
    Variables (normalize : bool) (D : option nat) (err : option E).
    Hypothesis Tqr : total qrf.
    Hypothesis Tsvd : (D = None /\ err = None) \/ total svdf.

    Lemma use_svd_total (ts : list tensor) n : n < length ts -> exists b, use_svd ts D err n = Ok b /\ (D = None /\ err = None -> b = false).
    Proof.
      intros H. unfold use_svd. destruct D as [d|].
      - unfold bond_dimension. rewrite (proj2 (Nat.ltb_ge _ _)) by lia. rewrite (proj2 (Nat.ltb_lt _ _)) by lia.
        unfold get. destruct (nth_error ts n) eqn:F; [|apply nth_error_None in F; lia]. cbn. eexists. split; [reflexivity|]. intros [? _]. discriminate.
      - cbn. eexists. split; [reflexivity|]. intros [_ ->]. reflexivity.
    Qed.
    Lemma split_right_total (ts : list tensor) n t l d r : n + 1 < length ts -> shape t = [l; d; r] ->
      exists f, split_right iter qrf svdf nkeep D err ts n t = Ok f.
    Proof.
      intros H St. unfold split_right. destruct (use_svd_total H) as (b & -> & Hb). cbn [rbind]. destruct b.
      - destruct Tsvd as [HN|T]; [specialize (Hb HN); discriminate|]. destruct (T (as_matrix t 2)) as (f & F).
        destruct (svd_at svdf nkeep true D err t 2) as [[[[u s] v] tw]| |] eqn:G; try (unfold svd_at in G; rewrite F in G; discriminate).
        cbn [rbind]. destruct (@svd_at_spec R E svdf nkeep Hsvd t u v s tw true D err [l; d] [r] 2 St eq_refl G) as (S1 & S2 & _). cbn in S2.
        destruct (@diag_rows R iter iter_perm s (length s) v r eq_refl S2) as (w & -> & _). cbn. eauto.
      - unfold qr_at. destruct (Tqr (as_matrix t 2)) as (f & ->). cbn. eauto.
    Qed.
    Lemma split_left_total (ts : list tensor) n t l d r : n < length ts -> shape t = [l; d; r] ->
      exists f, split_left iter qrf svdf nkeep D err ts n t = Ok f.
    Proof.
      intros H St. unfold split_left. destruct (use_svd_total H) as (b & -> & Hb). cbn [rbind]. destruct b.
      - destruct Tsvd as [HN|T]; [specialize (Hb HN); discriminate|]. destruct (T (as_matrix t 1)) as (f & F).
        destruct (svd_at svdf nkeep true D err t 1) as [[[[u s] v] tw]| |] eqn:G; try (unfold svd_at in G; rewrite F in G; discriminate).
        cbn [rbind]. destruct (@svd_at_spec R E svdf nkeep Hsvd t u v s tw true D err [l] [d; r] 1 St eq_refl G) as (S1 & S2 & _). cbn in S1.
        destruct (@diag_cols R iter iter_perm s (length s) u l eq_refl S1) as (w & -> & _). cbn. eauto.
      - unfold rq_at. destruct (Tqr (adjoint (as_matrix t 1))) as (f & ->). cbn. eauto.
    Qed.
    Notation move_right := (move_right iter qrf svdf nkeep nrm rdiv normalize D err).
    Notation move_left := (move_left iter qrf svdf nkeep nrm rdiv normalize D err).
    Lemma move_right_total l r (ts : list tensor) n : chain l ts r -> n + 1 < length ts -> exists f, move_right ts n = Ok f.
    Proof.
      intros C H. unfold Mps.move_right, get.
      destruct (nth_error ts n) as [t|] eqn:Et; [|apply nth_error_None in Et; lia]. cbn [rbind].
      destruct (nth_error_split3 Et) as (p & q0 & Ets & Lp).
      pose proof C as C0. rewrite Ets in C0. destruct (proj1 (chain_app _ _ l r) C0) as (m & Cp & (d & m2 & St & Cq)).
      destruct (split_right_total H St) as ([iso rest] & F). rewrite F. cbn [rbind].
      rewrite Ets, <- Lp, set_nth_app. rewrite nth_error_app2 by lia. replace (length p + 1 - length p) with 1 by lia. cbn [nth_error].
      destruct q0 as [|u q]. { rewrite Ets, app_length in H. cbn in H. lia. }
      cbn [nth_error rbind]. destruct Cq as (e & m3 & Su & Cq).
      destruct (split_right_spec iter_perm Hqr Hsvd St F) as (k & Si & Sr & _).
      destruct (@ncon_mt R iter iter_perm rest u k m2 e m3 Sr Su) as (w & -> & _). cbn. eauto.
    Qed.
    Lemma move_left_total l r (ts : list tensor) n : chain l ts r -> 0 < n -> n < length ts -> exists f, move_left ts n = Ok f.
    Proof.
      intros C Hn H. unfold Mps.move_left, get.
      destruct (nth_error ts n) as [t|] eqn:Et; [|apply nth_error_None in Et; lia]. cbn [rbind].
      destruct (nth_error ts (n - 1)) as [u|] eqn:Eu; [|apply nth_error_None in Eu; lia].
      destruct (@nth_error_split4 _ ts (n - 1) u t Eu) as (p & q & Ets & Lp). { replace (n - 1 + 1) with n by lia. exact Et. }
      pose proof C as C0. rewrite Ets in C0. destruct (proj1 (chain_app _ _ l r) C0) as (m & Cp & (d & m2 & Su & (e & m3 & St & Cq))).
      destruct (split_left_total H St) as ([rest iso] & F). rewrite F. cbn [rbind].
      assert (n = length (p ++ [u])) as Ln by (rewrite app_length; cbn; lia).
      assert (set_nth n iso ts = p ++ u :: iso :: q) as E1.
      { rewrite Ets, Ln. change (u :: t :: q) with ([u] ++ t :: q). rewrite app_assoc, set_nth_app, <- app_assoc. reflexivity. }
      rewrite E1, <- Lp, nth_error_app2, Nat.sub_diag by lia. cbn [nth_error rbind].
      destruct (split_left_spec iter_perm Hqr Hsvd St F) as (k & Si & Sr & _).
      destruct (@ncon_tm R iter iter_perm u rest m d m2 k Su Sr) as (w & -> & _). cbn. eauto.
    Qed.
    Lemma phys_eq_length (x y : list tensor) : phys x = phys y -> length x = length y.
    Proof. intros H. rewrite <- (phys_length x), <- (phys_length y), H. reflexivity. Qed.
    Lemma right_sweep_total l r k : forall c (ts : list tensor) z0, chain l ts r -> c + k < length ts -> exists f, loop move_right (seq c k) ts z0 = Ok f.
    Proof.
      induction k as [|k IH]; intros c ts z0 C H; [cbn; eauto|]. cbn [seq loop].
      destruct (@move_right_total l r ts c C) as ([ts1 z1] & F); [lia|]. rewrite F. cbn [rbind].
      destruct (move_right_spec iter_perm Hqr Hsvd C F) as (p & t & u & q & iso & w & E1 & Lp & E2 & Ez & C1 & P1 & I & K).
      apply IH; [exact C1|]. rewrite (phys_eq_length P1). lia.
    Qed.
    Lemma left_sweep_total l r s k : forall (ts : list tensor) z0, chain l ts r -> s + k < length ts -> exists f, loop move_left (rev (seq (s + 1) k)) ts z0 = Ok f.
    Proof.
      induction k as [|k IH]; intros ts z0 C H; [cbn; eauto|]. rewrite rev_seq_S. cbn [loop].
      destruct (@move_left_total l r ts (s + 1 + k) C) as ([ts1 z1] & F); [lia | lia |]. rewrite F. cbn [rbind].
      assert (0 < s + 1 + k) as Pos by lia.
      destruct (move_left_spec iter_perm Hqr Hsvd Pos C F) as (p & t & u & q & iso & w & E1 & Lp & E2 & Ez & C1 & P1 & I & K).
      apply IH; [exact C1|]. rewrite (phys_eq_length P1). lia.
    Qed.
    Lemma position_total l r (m : mps R) c s : chain l (tens m) r -> centre m = Some c -> c < length (tens m) -> s < length (tens m) ->
      match err with Some e => err_ge1 e = false | None => True end ->
      exists f, position iter qrf svdf nkeep err_ge1 nrm rdiv normalize D err m (Z.of_nat s) = Ok f.
    Proof.
      intros C Hc Lc Ls He. unfold position. rewrite Hc. unfold guard.
      replace (match err with Some e => negb (err_ge1 e) | None => true end) with true by (destruct err; [rewrite He|]; reflexivity).
      rewrite (proj2 (Z.leb_gt _ _)) by lia. rewrite (proj2 (Z.ltb_ge _ _)) by lia. cbn [orb negb]. rewrite Nat2Z.id.
      destruct (s =? c) eqn:E1; [|destruct (c <? s) eqn:E2].
      - unfold get. destruct (nth_error (tens m) c) as [t|] eqn:Et; [cbn; eauto | apply nth_error_None in Et; lia].
      - apply Nat.ltb_lt in E2. destruct (@right_sweep_total l r (s - c) c (tens m) r0 C) as ([ts z] & ->); [lia|]. cbn. eauto.
      - apply Nat.ltb_ge in E2. destruct (@left_sweep_total l r s (c - s) (tens m) r0 C) as ([ts z] & ->); [lia|]. cbn. eauto.
    Qed.
  End Total.

  (** ** [__init__] and [canonicalize] *)
  Notation pos normalize := (position iter qrf svdf nkeep err_ge1 nrm rdiv normalize None None).

  (** a bare list of tensors brought into canonical form *)
  Definition brought (normalize : bool) l r (ts : list tensor) (m : mps R) (c : nat) : Prop :=
    centre m = Some c /\ c < length ts /\ chain l (tens m) r /\ phys (tens m) = phys ts /\ canonical (tens m) c /\
    ((normalize = true -> nonzero l r ts /\ norm_ok nrm /\ div_ok rdiv) ->
     exists k, scaled l r k ts (tens m) /\ (normalize = false -> k = r1)).

  Lemma factor_false zs : lprod zs (factor (R := R) false) = r1.
  Proof. induction zs as [|z zs IH]; [reflexivity|]. rewrite lprod_cons, IH. unfold factor. ring. Qed.

  (** one sweep over the whole chain from an end, followed by a move inside *)
  Lemma two_moves normalize l r (ts : list tensor) c1 s1 s2 m1 m2 z1 z2 : chain l ts r ->
    (c1 = 0 /\ Z.of_nat (length ts) = (s1 + 1)%Z) \/ (c1 + 1 = length ts /\ s1 = 0%Z) ->
    pos normalize (MPS ts (Some c1)) s1 = Ok (m1, z1) -> pos normalize m1 s2 = Ok (m2, z2) ->
    brought normalize l r ts m2 (Z.to_nat s2) /\ (exists w, nth_error (tens m2) (Z.to_nat s2) = Some (out rdiv normalize w z2) /\ z2 = nrm w).
  Proof.
    intros C B H1 H2.
    destruct (@position_spec R E iter qrf svdf nkeep err_ge1 nrm rdiv iter_perm Hqr Hsvd normalize None None l r (MPS ts (Some c1)) m1 s1 z1 c1 C eq_refl H1)
      as (a & Ea & La & Ca & C1 & P1 & U1 & V1 & (zs1 & _ & _ & K1) & _). cbn [tens] in *.
    destruct (@position_spec R E iter qrf svdf nkeep err_ge1 nrm rdiv iter_perm Hqr Hsvd normalize None None l r m1 m2 s2 z2 a C1 Ca H2)
      as (b & Eb & Lb & Cb & C2 & P2 & U2 & V2 & (zs2 & _ & _ & K2) & W).
    assert (left_upto (tens m1) a) as LU. { apply U1. intros i t _ Hi. lia. }
    assert (right_from (tens m1) a) as RF.
    { apply V1. intros i t Ht Hi. assert (i < length ts) by (apply nth_error_Some; congruence). lia. }
    subst s2. rewrite Nat2Z.id. split; [|exact W].
    split; [exact Cb|]. split; [rewrite <- (phys_eq_length P1); exact Lb|]. split; [exact C2|]. split; [congruence|]. split.
    - apply canonical_split. split.
      + apply U2. eapply left_upto_mono; [|exact LU]. lia.
      + apply V2. eapply right_from_mono; [|exact RF]. lia.
    - intros N. assert (keeps svdf nkeep nrm rdiv normalize None None l r ts) as HK by (split; [left; auto | exact N]).
      specialize (K1 HK). specialize (K2 (keeps_next HK K1)).
      eexists. split; [eapply scaled_trans; [exact K1 | exact K2]|].
      intros ->. rewrite !factor_false. ring.
  Qed.

  Notation init := (init iter qrf svdf nkeep err_ge1 nrm rdiv).
  Notation canonicalize := (canonicalize iter qrf svdf nkeep err_ge1 nrm rdiv).
  Definition want (cp : option Z) : nat := match cp with Some c => Z.to_nat c | None => 0 end.

  Lemma init_spec l r (ts : list tensor) cp m : chain l ts r -> init ts cp true = Ok m ->
    brought true l r ts m (want cp) /\ (exists w, nth_error (tens m) (want cp) = Some (tdiv rdiv w (nrm w))).
  Proof.
    intros C H. unfold Mps.init, guard in H.
    destruct (match cp with Some c => negb ((c <? 0) || (Z.of_nat (length ts) <=? c))%Z | None => true end) eqn:G; [|discriminate].
    destruct (negb (match cp with Some _ => true | None => false end && negb true)) eqn:G'; [|discriminate].
    set (c := match cp with Some c => c | None => 0%Z end) in *.
    assert (want cp = Z.to_nat c) as -> by (unfold want, c; destruct cp; reflexivity).
    destruct ((c =? Z.of_nat (length ts) - 1)%Z) eqn:Ec.
    - apply Z.eqb_eq in Ec.
      destruct (pos true (MPS ts (Some (Z.to_nat (Z.of_nat (length ts) - 1)))) 0%Z) as [[m1 z1]| |] eqn:F1; [|discriminate|discriminate]. cbn [rbind fst] in H.
      destruct (pos true m1 (Z.of_nat (length ts) - 1)%Z) as [[m2 z2]| |] eqn:F2; [|discriminate|discriminate]. cbn [rbind fst] in H. injection H as <-.
      assert (0 < length ts) as Pos.
      { destruct (@position_spec R E iter qrf svdf nkeep err_ge1 nrm rdiv iter_perm Hqr Hsvd true None None l r (MPS ts (Some (Z.to_nat (Z.of_nat (length ts) - 1)))) m1 0%Z z1 _ C eq_refl F1) as (a & _ & La & _). cbn in La. lia. }
      rewrite Ec. edestruct two_moves as [B (w & W1 & W2)]; [exact C | | exact F1 | exact F2 |].
      + right. split; [lia | reflexivity].
      + split; [exact B|]. exists w. rewrite W1, W2. reflexivity.
    - destruct (pos true (MPS ts (Some 0)) (Z.of_nat (length ts) - 1)%Z) as [[m1 z1]| |] eqn:F1; [|discriminate|discriminate]. cbn [rbind fst] in H.
      destruct (pos true m1 c) as [[m2 z2]| |] eqn:F2; [|discriminate|discriminate]. cbn [rbind fst] in H. injection H as <-.
      edestruct two_moves as [B (w & W1 & W2)]; [exact C | | exact F1 | exact F2 |].
      + left. split; [reflexivity | lia].
      + split; [exact B|]. exists w. rewrite W1, W2. reflexivity.
  Qed.
  Lemma init_plain (ts : list tensor) m : init ts None false = Ok m -> m = MPS ts None.
  Proof. cbn. intros H. injection H as <-. reflexivity. Qed.

  Lemma init_total l r (ts : list tensor) cp : total qrf -> chain l ts r -> ts <> [] ->
    match cp with Some c => (0 <= c < Z.of_nat (length ts))%Z | None => True end -> exists m, init ts cp true = Ok m.
  Proof.
    intros T C Ne Hc. assert (0 < length ts) as Pos by (destruct ts; [contradiction | cbn; lia]).
    unfold Mps.init, guard.
    replace (match cp with Some c => negb ((c <? 0) || (Z.of_nat (length ts) <=? c))%Z | None => true end) with true.
    2: { destruct cp as [c|]; [|reflexivity]. rewrite (proj2 (Z.ltb_ge _ _)), (proj2 (Z.leb_gt _ _)) by lia. reflexivity. }
    replace (negb (match cp with Some _ => true | None => false end && negb true)) with true by (destruct cp; reflexivity).
    set (c := match cp with Some c => c | None => 0%Z end) in *.
    assert (0 <= c < Z.of_nat (length ts))%Z as Bc by (unfold c; destruct cp; [exact Hc | lia]). clearbody c.
    assert (forall c1 s1 s2, c1 < length ts -> s1 < length ts -> s2 < length ts ->
      exists f g, pos true (MPS ts (Some c1)) (Z.of_nat s1) = Ok f /\ pos true (fst f) (Z.of_nat s2) = Ok g) as TWO.
    { intros c1 s1 s2 L1 L2 L3.
      destruct (@position_total true None None T (or_introl (conj eq_refl eq_refl)) l r (MPS ts (Some c1)) c1 s1 C eq_refl L1 L2 I) as ([m1 z1] & F1).
      destruct (@position_spec R E iter qrf svdf nkeep err_ge1 nrm rdiv iter_perm Hqr Hsvd true None None l r (MPS ts (Some c1)) m1 _ z1 c1 C eq_refl F1)
        as (a & Ea & La & Ca & C1 & P1 & _). cbn [tens] in *.
      destruct (@position_total true None None T (or_introl (conj eq_refl eq_refl)) l r m1 a s2 C1 Ca) as ([m2 z2] & F2); try (rewrite (phys_eq_length P1); lia); [exact I|].
      exists (m1, z1), (m2, z2). auto. }
    destruct ((c =? Z.of_nat (length ts) - 1)%Z) eqn:Ec.
    - destruct (TWO (length ts - 1) 0 (length ts - 1)) as (f & g & F & G); try lia.
      replace (Z.to_nat (Z.of_nat (length ts) - 1)) with (length ts - 1) by lia. cbn [Z.of_nat] in F. rewrite F. cbn [rbind].
      replace (Z.of_nat (length ts) - 1)%Z with (Z.of_nat (length ts - 1)) by lia. rewrite G. cbn. eauto.
    - destruct (TWO 0 (length ts - 1) (Z.to_nat c)) as (f & g & F & G); try lia.
      replace (Z.of_nat (length ts) - 1)%Z with (Z.of_nat (length ts - 1)) by lia. rewrite F. cbn [rbind].
      rewrite Z2Nat.id in G by lia. rewrite G. cbn. eauto.
  Qed.

  Lemma canonicalize_spec normalize l r (m m' : mps R) z : chain l (tens m) r -> canonicalize normalize m = Ok (m', z) ->
    let c := match centre m with Some c => c | None => 0 end in
    brought normalize l r (tens m) m' c /\ (exists w, nth_error (tens m') c = Some (out rdiv normalize w z) /\ z = nrm w).
  Proof.
    intros C H c. unfold Mps.canonicalize in H. destruct m as [ts ctr]. cbn [tens centre] in *. destruct ctr as [p|].
    - destruct (length ts / 2 <=? p).
      + destruct (pos normalize (MPS ts (Some 0)) (Z.of_nat (length ts) - 1)%Z) as [[m1 z1]| |] eqn:F1; [|discriminate|discriminate]. cbn [rbind fst] in H.
        edestruct two_moves as [B W]; [exact C | | exact F1 | exact H |].
        * left. split; [reflexivity | lia].
        * rewrite Nat2Z.id in B, W. subst c. split; [exact B | exact W].
      + destruct (pos normalize (MPS ts (Some (length ts - 1))) 0%Z) as [[m1 z1]| |] eqn:F1; [|discriminate|discriminate]. cbn [rbind fst] in H.
        assert (0 < length ts) as Pos.
        { destruct (@position_spec R E iter qrf svdf nkeep err_ge1 nrm rdiv iter_perm Hqr Hsvd normalize None None l r (MPS ts (Some (length ts - 1))) m1 0%Z z1 _ C eq_refl F1) as (a & _ & La & _). cbn in La. lia. }
        edestruct two_moves as [B W]; [exact C | | exact F1 | exact H |].
        * right. split; [lia | reflexivity].
        * rewrite Nat2Z.id in B, W. subst c. split; [exact B | exact W].
    - subst c.
      destruct (@position_spec R E iter qrf svdf nkeep err_ge1 nrm rdiv iter_perm Hqr Hsvd normalize None None l r (MPS ts (Some (length ts - 1))) m' 0%Z z _ C eq_refl H)
        as (b & Eb & Lb & Cb & C2 & P2 & U2 & V2 & (zs2 & _ & _ & K2) & W). cbn [tens] in *.
      assert (b = 0) as -> by lia. split; [|exact W].
      split; [exact Cb|]. split; [exact Lb|]. split; [exact C2|]. split; [exact P2|]. split.
      + apply canonical_split. split; [intros i t _ Hi; lia|].
        apply V2. intros i t Ht Hi. assert (i < length ts) by (apply nth_error_Some; congruence). lia.
      + intros N. assert (keeps svdf nkeep nrm rdiv normalize None None l r ts) as HK by (split; [left; auto | exact N]).
        eexists. split; [exact (K2 HK)|]. intros ->. apply factor_false.
  Qed.
End Canon.
