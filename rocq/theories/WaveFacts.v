(** * WaveFacts: the network of an operator on some of the sites *)
From Coq Require Import Permutation List Lia.
From Verif Require Import Prelude Algebra Tensor TensorFacts Einsum EinsumFacts NetworkFacts Graph GraphBase GraphConnect GraphContract GraphOps GraphValue GraphLaws GraphJoin GraphQuery GraphQueryFacts GraphCopy GraphCopyFacts GraphDensity GraphTotal Quantum QuantumSpec QuantumFacts QuantumJoin QuantumMake Stitch Fft FftStitch FftFacts SatFacts Wave WaveSpec.
Import ListNotations.
Set Implicit Arguments.
Unset Strict Implicit.

Section WF.
  Context {R : cjr}.
  Notation st := (@st R).
  Notation M := (@M R).
  Implicit Types (s : st) (e f g : eid) (n m : nid).
  Notation "x *! y" := (rmul x y) (at level 40, left associativity).
  Add Ring Rwf : (rsr R).

  (** ** lists *)
  Lemma position_none j ts : position j ts = None <-> ~ In j ts.
  Proof.
    induction ts as [|t ts IH]; cbn; [tauto|]. destruct (Nat.eqb_spec j t) as [->|H]; [split; [discriminate|tauto]|].
    destruct (position j ts); cbn; split; intros Q; try discriminate; try reflexivity.
    - exfalso. assert (Some n = None) by (apply IH; tauto). discriminate.
    - intros [K|K]; [congruence|]. apply (proj1 IH eq_refl K).
  Qed.
  Lemma position_some j ts k : position j ts = Some k -> k < length ts /\ nth k ts 0 = j.
  Proof.
    revert k. induction ts as [|t ts IH]; cbn; intros k; [discriminate|]. destruct (Nat.eqb_spec j t) as [->|H].
    - intros Q. injection Q as <-. split; [lia|reflexivity].
    - destruct (position j ts) as [i|]; cbn; [|discriminate]. intros Q. injection Q as <-. destruct (IH i eq_refl). split; [lia|assumption].
  Qed.
  Lemma over_length l ts xs : length (over l ts xs) = length l.
  Proof. unfold over. rewrite map_length, seq_length. reflexivity. Qed.
  Lemma nth_over l ts xs j : j < length l -> nth j (over l ts xs) 0 = match position j ts with Some k => nth k xs 0 | None => nth j l 0 end.
  Proof.
    intros Hj. unfold over. set (g := fun j => match position j ts with Some k => nth k xs 0 | None => nth j l 0 end).
    rewrite (nth_indep _ 0 (g 0)) by (rewrite map_length, seq_length; exact Hj). rewrite map_nth. rewrite seq_nth by exact Hj. reflexivity.
  Qed.
  Lemma over_puts l ts xs : NoDup ts -> (forall t, In t ts -> t < length l) -> length xs = length ts -> over l ts xs = puts l ts xs.
  Proof.
    intros ND Hr Hl. apply (nth_ext _ _ 0 0); [rewrite over_length, puts_length; reflexivity|]. rewrite over_length. intros j Hj. rewrite nth_over by exact Hj.
    destruct (position j ts) as [k|] eqn:E.
    - destruct (position_some E) as [Hk <-]. symmetry. apply puts_at; assumption.
    - apply position_none in E. symmetry. apply puts_other; assumption.
  Qed.

  (** ** the loop of the model *)
  Lemma op_loop_ok op w n1 pbc (nes : nat -> eid) ms : forall state s s',
    let tgt := fun m => if pbc : bool then (n1 + m) mod length state else n1 + m in
    wf s -> NoDup ms -> NoDup (map tgt ms) -> (forall m, In m ms -> m < w /\ tgt m < length state) ->
    (forall m, In m ms -> slot s (op, m) = Some (nes m) /\ slot s (op, w + m) = Some (nes (w + m))) -> (forall i j, nes i = nes j -> i = j) ->
    (forall m i, In m ms -> nth (tgt m) state 0 <> nes i) -> (forall m, In m ms -> exists p, slot s p = Some (nth (tgt m) state 0)) ->
    (forall m m', In m ms -> In m' ms -> nth (tgt m) state 0 = nth (tgt m') state 0 -> m = m') ->
    connects (map (fun m => nes (w + m)) ms) (map (fun m => nth (tgt m) state 0) ms) s = (s', Some tt) ->
    op_loop op w n1 pbc ms state s = (s', Some (puts state (map tgt ms) (map nes ms))).
  Proof.
    induction ms as [|m ms IH]; intros state s s' tgt W ND NDt Hr Hs Hinj Hap Hsl Hst H; cbn [length map connects op_loop puts] in *.
    { unfold ret in *. congruence. }
    apply NoDup_cons_iff in ND. destruct ND as [Ht ND]. apply NoDup_cons_iff in NDt. destruct NDt as [Htt NDt].
    fold (tgt m). destruct (Hr m (or_introl eq_refl)) as [Hmw Hml]. destruct (Hs m (or_introl eq_refl)) as [Hs1 Hs2].
    unfold bind at 1. rewrite (edge_of_slot Hs2). rewrite (nth_error_nth' state 0 Hml).
    unfold bind in H |- *. destruct (connect (nes (w + m)) (nth (tgt m) state 0) s) as [s1 [g|]] eqn:E; [|discriminate].
    destruct (connect_inv W (ex_intro _ _ Hs2) (Hsl m (or_introl eq_refl)) E) as (p & q & C).
    assert (forall z x, slot s z = Some x -> x <> nth (tgt m) state 0 -> x <> nes (w + m) -> slot s1 z = Some x) as Keep.
    { intros z x Hz N1 N2. rewrite (cp_slot C). pose proof (cp_p1 C). pose proof (cp_p2 C).
      destruct (slot_eqb_spec z p) as [->|]; [congruence|]. destruct (slot_eqb_spec z q) as [->|]; [congruence|]. exact Hz. }
    assert (slot s1 (op, m) = Some (nes m)) as Hout.
    { apply Keep; [exact Hs1| |]; [intros Q; apply (Hap m m (or_introl eq_refl)); congruence|intros Q; apply Hinj in Q; lia]. }
    rewrite (edge_of_slot Hout).
    set (state1 := replace_nth (tgt m) (nes m) state). assert (length state1 = length state) as Hl1 by apply replace_nth_length.
    assert (forall j, In j ms -> nth (tgt j) state1 0 = nth (tgt j) state 0) as Hnth.
    { intros j Hj. unfold state1. rewrite nth_replace by exact Hml. destruct (Nat.eqb_spec (tgt j) (tgt m)) as [Q|]; [|reflexivity].
      exfalso. apply Htt. rewrite <- Q. apply in_map. exact Hj. }
    specialize (IH state1 s1 s'). cbn zeta in IH. rewrite Hl1 in IH. fold tgt in IH. apply IH.
    - apply (connect_wf W C).
    - exact ND.
    - exact NDt.
    - intros j Hj. apply Hr. right. exact Hj.
    - intros j Hj. destruct (Hs j (or_intror Hj)) as [Q1 Q2]. destruct (Hr j (or_intror Hj)) as [Q3 _]. split.
      + apply Keep; [exact Q1| |]; [intros Q; apply (Hap m j (or_introl eq_refl)); symmetry; exact Q|intros Q; apply Hinj in Q; lia].
      + apply Keep; [exact Q2| |]; [intros Q; apply (Hap m (w + j) (or_introl eq_refl)); symmetry; exact Q|].
        intros Q. apply Hinj in Q. assert (j = m) by lia. subst. contradiction.
    - exact Hinj.
    - intros j i Hj. change (nth (tgt j) state1 0 <> nes i). rewrite (Hnth j Hj). apply Hap. right. exact Hj.
    - intros j Hj. change (exists p, slot s1 p = Some (nth (tgt j) state1 0)). rewrite (Hnth j Hj). destruct (Hsl j (or_intror Hj)) as (z & Hz).
      destruct (Nat.eq_dec (nth (tgt j) state 0) (nth (tgt m) state 0)) as [Q|Q].
      + exfalso. apply (Hst j m (or_intror Hj) (or_introl eq_refl)) in Q. congruence.
      + exists z. apply Keep; [exact Hz|exact Q|]. apply Hap. right. exact Hj.
    - intros j j' Hj Hj'. change (nth (tgt j) state1 0 = nth (tgt j') state1 0 -> j = j'). rewrite (Hnth j Hj), (Hnth j' Hj'). apply Hst; right; assumption.
    - change (connects (map (fun m => nes (w + m)) ms) (map (fun m => nth (tgt m) state1 0) ms) s1 = (s', Some tt)). rewrite (map_ext_in _ _ _ Hnth). exact H.
  Qed.

  (** ** a new node before the ends of a network *)
  Lemma attach_rev s s1 ns t n nes es fs : wf s -> live s ns -> leaf s s1 t n nes -> NoDup es -> (forall x, In x es -> loose s ns x) ->
    NoDup fs -> (forall x, In x fs -> In x nes) -> Forall2 (fun f e => edim s1 f = edim s e) fs es ->
    exists s', connects fs es s1 = (s', Some tt) /\ joined s1 s' fs es /\ attached s s' ns t n nes es fs.
  Proof.
    intros W LV L Ne Hes Nf Hfs Hd.
    assert (forall x, In x es -> ~ In x nes) as Hap by (intros x Hx; apply (beside_apart L LV), Hes, Hx).
    assert (NoDup (fs ++ es)) as Nef.
    { apply NoDup_app_iff. split; [exact Nf|]. split; [exact Ne|]. intros x Hx Hx'. apply (Hap x Hx'), Hfs, Hx. }
    assert (forall x, In x (fs ++ es) -> loose s1 (ns ++ [n]) x) as Hl.
    { intros x Hx. apply in_app_or in Hx. destruct Hx as [Hx|Hx]; [apply (beside_new ns L), Hfs, Hx|apply (beside_old L LV), Hes, Hx]. }
    assert (forall x, In x es -> edim s1 x = edim s x) as Qd by (intros x Hx; apply (loose_edim W (lf_wf L) (lf_kept L) (Hes x Hx))).
    destruct (@connects_ok R fs es s1 (lf_wf L) Nef) as (s' & H1 & J).
    { intros x Hx. destruct (Hl x Hx) as (p & _ & Q). exists p. exact Q. }
    { clear - Hd Qd. induction Hd as [|x y l l' H _ IH]; constructor; [rewrite (Qd y) by (left; reflexivity); exact H|]. apply IH. intros z Hz. apply Qd. right. exact Hz. }
    exists s'. split; [exact H1|]. split; [exact J|].
    assert (forall x (l : list nid), loose s1 l x -> x < s_ne s1) as Hlt by (intros x l (p & _ & Q & _); apply (slot_lt (lf_wf L) Q)).
    split.
    - apply (jn_wf J).
    - apply (lf_fresh L).
    - intros m Hm. apply (joined_is_node J), (kept_node (lf_kept L) Hm).
    - apply (joined_live J), (beside_live L LV).
    - apply (lf_nodup L).
    - apply (lf_len L).
    - intros x. apply (beside_apart L LV).
    - intros x Hx Hn. pose proof (beside_old L LV Hx) as Q.
      assert (~ In x (fs ++ es)) as Hn' by (intros K; apply in_app_or in K; destruct K as [K|K]; [apply (beside_apart L LV Hx), Hfs, K|contradiction]).
      split; [apply (joined_loose J Q (Hlt _ _ Q) Hn')|]. rewrite (joined_edim (lf_wf L) J Q Hn'). apply (loose_edim W (lf_wf L) (lf_kept L) Hx).
    - intros k Hk Hn. assert (In (nth k nes 0) nes) as Hin by (apply nth_In; rewrite (lf_len L); exact Hk).
      pose proof (beside_new ns L Hin) as Q.
      assert (~ In (nth k nes 0) (fs ++ es)) as Hn' by (intros K; apply in_app_or in K; destruct K as [K|K]; [contradiction|apply (Hap _ K Hin)]).
      split; [apply (joined_loose J Q (Hlt _ _ Q) Hn')|]. rewrite (joined_edim (lf_wf L) J Q Hn'). apply (leaf_dim L Hk).
    - intros a. rewrite (jn_val J) by (auto; apply (beside_live L LV)).
      replace (map (edim s1) fs) with (map (edim s) es) by (clear - Hd; induction Hd as [|x y l l' H _ IH]; cbn; [reflexivity|]; rewrite IH, H; reflexivity).
      apply lsum_ext. intros vs Hvs. rewrite (beside_netval W L LV).
      assert (length vs = length es) as Hlv by (apply In_idxs in Hvs; rewrite (valid_length Hvs), map_length; reflexivity).
      assert (length vs = length fs) as Hlf by (rewrite Hlv; clear - Hd; induction Hd; cbn; auto).
      f_equal.
      + apply netval_ext_asg. intros x Hx. apply binds_other. intros K. apply Hfs in K.
        assert (In x (net_labels (net_of s ns))) as K2 by (apply (count_occ_In Nat.eq_dec); lia).
        apply In_net_labels in K2. destruct K2 as (m & Hm & Ho). apply (leaf_on L) in K.
        apply (kept_on x (lf_kept L) (proj2 LV _ Hm)) in Ho. apply (lf_fresh L), (k_sep (lf_kept L) (proj2 LV _ Hm) Ho K).
      + f_equal. apply map_ext_in. intros x Hx.
        destruct (in_dec Nat.eq_dec x fs) as [Hxe|Hxe].
        * destruct (In_nth_error _ _ Hxe) as (i & Hi). pose proof (binds_nth (binds Nat.eq_dec a es vs) Nf Hlf Hi) as B1. pose proof (binds_nth a Nf Hlf Hi) as B2. congruence.
        * transitivity (binds Nat.eq_dec a es vs x); [apply binds_other; exact Hxe|]. transitivity (a x); [|symmetry; apply binds_other; exact Hxe]. apply binds_other. intros K. apply (Hap x K Hx).
  Qed.
End WF.
