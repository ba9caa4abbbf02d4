(** * SatFacts: the value and the paths of a 3SAT network while it is built *)
From Coq Require Import Permutation List Lia ZArith.
From Verif Require Import Prelude Algebra Tensor TensorFacts Einsum EinsumFacts NetworkFacts Graph GraphBase GraphConnect GraphContract GraphOps GraphValue GraphLaws GraphJoin GraphQuery GraphQueryFacts GraphCopy GraphCopyFacts GraphDensity CopyTensor Quantum QuantumSpec QuantumFacts QuantumJoin QuantumMake Stitch FftStitch FftSpec FftFacts Sat.
Import ListNotations.
Set Implicit Arguments.
Unset Strict Implicit.

Section SF.
  Context {R : cjr}.
  Notation st := (@st R).
  Implicit Types (s : st).
  Notation "x +! y" := (radd x y) (at level 50, left associativity).
  Notation "x *! y" := (rmul x y) (at level 40, left associativity).
  Add Ring Rsf : (rsr R).

  (** a new node leaves the others as they are *)
  Lemma leaf_on_old s s1 (t : tensor R) n nes h x : leaf s s1 t n nes -> on s h x -> on s1 h x.
  Proof. intros L Hx. apply (kept_on x (lf_kept L) (on_node Hx)). exact Hx. Qed.
  Lemma leaf_conn s s1 (t : tensor R) n nes m m' : leaf s s1 t n nes -> connected s m m' -> connected s1 m m'.
  Proof. intros L. induction 1 as [q|q m l e H IH E1 E2]; [apply conn_refl|]. apply (conn_step IH (e := e)); apply (leaf_on_old L); assumption. Qed.
  Lemma leaf_closed s s1 (t : tensor R) n nes ns : leaf s s1 t n nes -> (forall m, In m ns -> is_node s m) ->
    (forall m m' e, In m ns -> on s m e -> on s m' e -> In m' ns) -> forall m m' e, In m (ns ++ [n]) -> on s1 m e -> on s1 m' e -> In m' (ns ++ [n]).
  Proof.
    intros L LV HC m m' e Hm E1 E2. apply in_or_app. apply in_app_or in Hm. destruct (Nat.eq_dec m' n) as [->|Hne'].
    - right. left. reflexivity.
    - destruct Hm as [Hm|[<-|[]]].
      + left. pose proof (k_sep (lf_kept L) (LV _ Hm) E1 E2) as Nm. apply (kept_on e (lf_kept L) (LV _ Hm)) in E1.
        apply (kept_on e (lf_kept L) Nm) in E2. apply (HC _ _ _ Hm E1 E2).
      + exfalso. apply Hne'. apply (leaf_on L) in E1. destruct (lf_open L E1) as (k & _ & Hu). destruct E2 as (k' & E2). pose proof (Hu _ E2) as Q. congruence.
  Qed.

  Lemma leaf_loose_back s s1 (t : tensor R) n nes ns x : leaf s s1 t n nes -> (forall m, In m ns -> is_node s m) -> loose s1 (ns ++ [n]) x -> loose s ns x \/ In x nes.
  Proof.
    intros L LV (p & P1 & P2 & P3). apply in_app_or in P1. destruct P1 as [P1|[P1|[]]].
    - left. rewrite (kept_slot (lf_kept L) (LV _ P1)) in P2. exists p. split; [exact P1|]. split; [exact P2|].
      rewrite (k_edges (lf_kept L) (m := fst p)) in P3; [exact P3|]. exists (snd p). rewrite <- surjective_pairing. exact P2.
    - right. apply (leaf_on L). exists (snd p). rewrite P1, <- surjective_pairing. exact P2.
  Qed.
  Lemma joined_loose_back s s' es fs ns x : wf s -> joined s s' es fs -> (forall y, In y (es ++ fs) -> dangles s y) -> loose s' ns x -> loose s ns x /\ ~ In x (es ++ fs).
  Proof.
    intros W J D (p & P1 & P2 & P3).
    assert (exists y, slot s p = Some y) as (y & Hy).
    { pose proof (jn_same J (fst p)) as Q. unfold slot in *. destruct (s_nodes s (fst p)) as [a|], (s_nodes s' (fst p)) as [b|]; try tauto; try discriminate.
      destruct Q as (_ & _ & Q). destruct (nth_error (n_edges a) (snd p)) as [z|] eqn:E; [eauto|]. exfalso. apply nth_error_None in E. assert (snd p < length (n_edges b)) by (apply nth_error_Some; congruence). lia. }
    assert (forall z, In z (es ++ fs) -> exists n, open_on s n z) as Hop.
    { intros z Hz. destruct (D z Hz) as (q & Hq & E). exists (fst q), (snd q). rewrite <- surjective_pairing. split; [exact Hq|].
      intros r Hr. apply (@dangles_one R s z r q W); auto. }
    destruct (in_dec Nat.eq_dec y (es ++ fs)) as [Hi|Hi].
    - exfalso. destruct (@joined_slot_new R s s' es fs p y W J Hy Hi Hop) as (g & q & _ & G1 & G2 & G3 & _).
      apply G3. rewrite G1 in P2. injection P2 as ->. apply (@dangles_one R s' x q p (jn_wf J)); auto. exists p. auto.
    - rewrite (jn_slot J Hy Hi) in P2. injection P2 as ->. split; [|exact Hi]. exists p. split; [exact P1|]. split; [exact Hy|].
      rewrite (jn_old J) in P3; [exact P3|apply (slot_lt W Hy)].
  Qed.

  Section Inv.
    Variables (s0 : st) (ns0 : list nid).
    Hypothesis W0 : wf s0.
    Hypothesis LV0 : live s0 ns0.

    (** the new nodes [ns] with the loose ends [vars] and [cs] *)
    Record sinv s (ns : list nid) (vars cs : list eid) (F : list nat -> list nat -> R) : Prop := {
      si_wf : wf s;
      si_live : live s (ns0 ++ ns);
      si_fresh : forall m, In m ns -> ~ is_node s0 m;
      si_nodes : forall m, is_node s0 m -> is_node s m;
      si_nodup : NoDup (vars ++ cs);
      si_loose : forall x, In x (vars ++ cs) -> loose s ns x /\ edim s x = 2;
      si_new : s_ne s0 <= s_ne s /\ forall x, In x (vars ++ cs) -> s_ne s0 <= x;
      si_rest : forall x, loose s0 ns0 x -> loose s (ns0 ++ ns) x /\ edim s x = edim s0 x;
      si_val : forall a, (forall x, In x (vars ++ cs) -> a x < 2) -> netval s (ns0 ++ ns) a = netval s0 ns0 a *! F (map a vars) (map a cs);
      si_conn : forall m m', connected s0 m m' -> connected s m m';
      si_closed : forall m m' e, In m ns -> on s m e -> on s m' e -> In m' ns;
      si_reach : forall m, In m ns -> exists x h, In x (vars ++ cs) /\ on s h x /\ connected s m h;
      si_slot : forall p, is_node s0 (fst p) -> slot s p = slot s0 p;
      si_sep : forall m m' e, ~ is_node s0 m -> on s m e -> on s m' e -> ~ is_node s0 m';
      si_open : forall x, loose s ns x -> In x (vars ++ cs)
    }.

    Lemma sinv_ext s ns vars cs F F' : sinv s ns vars cs F ->
      (forall ys rs, bitl (length vars) ys -> bitl (length cs) rs -> F ys rs = F' ys rs) -> sinv s ns vars cs F'.
    Proof.
      intros I H. destruct I as [I1 I2 I3 I4 I5 I6 I7 I8 I9 I10 I11 I12 I13 I14 I15]. split; auto. intros a Ha. rewrite (I9 a Ha). f_equal.
      assert (forall l, (forall x, In x l -> In x (vars ++ cs)) -> bitl (length l) (map a l)) as B.
      { intros l Hl. split; [apply map_length|]. intros j Hj. rewrite (nth_indep _ 0 (a 0)) by (rewrite map_length; exact Hj). rewrite map_nth. apply Ha, Hl, nth_In, Hj. }
      apply H; apply B; intros x Hx; apply in_or_app; auto.
    Qed.
    Lemma sinv_start : sinv s0 [] [] [] (fun _ _ => r1).
    Proof.
      split; cbn [app]; rewrite ?app_nil_r; auto; try solve [constructor]; try solve [intros x []]; try solve [intros m m' e []].
      - split; [lia|intros x []].
      - intros a _. ring.
      - intros m m' e K E1 _. elim K. apply (on_node E1).
      - intros x (p & [] & _).
    Qed.
    Lemma sinv_move s ns vars cs : sinv s ns vars cs (fun _ _ => r1) -> sinv s ns (vars ++ cs) [] (fun _ _ => r1).
    Proof. intros [I1 I2 I3 I4 I5 I6 I7 I8 I9 I10 I11 I12 I13 I14 I15]. split; rewrite ?app_nil_r; auto. Qed.

    (** the values of old loose ends do not depend on new edges *)
    Lemma old_value a es vs : (forall x, In x es -> s_ne s0 <= x) -> netval s0 ns0 (binds Nat.eq_dec a es vs) = netval s0 ns0 a.
    Proof.
      intros H. apply netval_ext_asg. intros x Hx. apply binds_other. intros K. apply H in K.
      assert (In x (net_labels (net_of s0 ns0))) as K2 by (apply (count_occ_In Nat.eq_dec); lia).
      apply In_net_labels in K2. destruct K2 as (q & _ & (i & Hs)). apply (slot_lt W0) in Hs. lia.
    Qed.

    (** a new node beside the others *)
    Lemma sinv_beside s ns vars F t : sinv s ns vars [] F -> shape t = repeat 2 (rank t) -> 0 < rank t ->
      exists s1 n nes, new_node t None s = (s1, Some n) /\ length nes = rank t /\ (forall k, k < rank t -> slot s1 (n, k) = Some (nth k nes 0)) /\
        (forall m m', connected s m m' -> connected s1 m m') /\ (forall h x, on s h x -> on s1 h x) /\
        sinv s1 (ns ++ [n]) vars nes (fun ys rs => F ys [] *! elt t rs).
    Proof.
      intros I Hsh Hr. destruct (leaf_new t (si_wf I)) as (s1 & n & H1 & L & Hne). set (nes := seq (s_ne s) (rank t)) in *.
      assert (forall h x, on s h x -> on s1 h x) as Kon by (intros h x; apply (leaf_on_old L)).
      assert (forall m m', connected s m m' -> connected s1 m m') as Kconn by (intros m m'; apply (leaf_conn L)).
      assert (length nes = rank t) as Ll by apply seq_length.
      exists s1, n, nes. split; [exact H1|]. split; [exact Ll|]. split; [apply (lf_slot L)|]. split; [exact Kconn|]. split; [exact Kon|].
      pose proof (si_new I) as [N1 N2]. pose proof (si_loose I) as HL. rewrite app_nil_r in *.
      assert (live s ns) as LVn.
      { destruct (si_live I) as [Q1 Q2]. apply NoDup_app_iff in Q1. split; [apply Q1|]. intros m Hm. apply Q2, in_or_app. right. exact Hm. }
      assert (forall x, In x vars -> ~ In x nes) as Hap.
      { intros x Hx K. apply in_seq in K. destruct (HL x Hx) as [(p & _ & Q & _) _]. apply (slot_lt (si_wf I)) in Q. lia. }
      split.
      - apply (lf_wf L).
      - rewrite app_assoc. apply (beside_live L (si_live I)).
      - intros m Hm. apply in_app_or in Hm. destruct Hm as [Hm|[<-|[]]]; [apply (si_fresh I), Hm|]. intros K. apply (lf_fresh L), (si_nodes I), K.
      - intros m Hm. apply (kept_node (lf_kept L)), (si_nodes I), Hm.
      - apply NoDup_app_iff. split; [pose proof (si_nodup I) as Q; rewrite app_nil_r in Q; exact Q|]. split; [apply (lf_nodup L)|exact Hap].
      - intros x Hx. apply in_app_or in Hx. destruct Hx as [Hx|Hx].
        + destruct (HL x Hx) as [Q1 Q2]. split; [apply (beside_old L LVn Q1)|]. rewrite (loose_edim (si_wf I) (lf_wf L) (lf_kept L) Q1). exact Q2.
        + split; [apply (beside_new ns L Hx)|]. destruct (In_nth _ _ 0 Hx) as (k & Hk & <-). rewrite Ll in Hk. rewrite (leaf_dim L Hk), Hsh.
          clear - Hk. revert k Hk. generalize (rank t) as q. induction q; intros [|k] Hk; cbn; try lia. apply IHq. lia.
      - split; [lia|]. intros x Hx. apply in_app_or in Hx. destruct Hx as [Hx|Hx]; [apply N2, Hx|]. apply in_seq in Hx. lia.
      - intros x Hx. destruct (si_rest I Hx) as [Q1 Q2]. rewrite app_assoc. split; [apply (beside_old L (si_live I) Q1)|].
        rewrite (loose_edim (si_wf I) (lf_wf L) (lf_kept L) Q1). exact Q2.
      - intros a Ha. rewrite app_assoc, (beside_netval (si_wf I) L (si_live I)), (si_val I) by (intros x Hx; rewrite app_nil_r in Hx; apply Ha, in_or_app; left; exact Hx). cbn [map]. ring.
      - intros m m' K. apply Kconn, (si_conn I), K.
      - apply (leaf_closed L (proj2 LVn) (si_closed I)).
      - intros m Hm. apply in_app_or in Hm. destruct Hm as [Hm|[<-|[]]].
        + destruct (si_reach I Hm) as (x & h & X1 & X2 & X3). rewrite app_nil_r in X1. exists x, h. split; [apply in_or_app; left; exact X1|]. split; [apply Kon, X2|apply Kconn, X3].
        + exists (nth 0 nes 0), n. split; [apply in_or_app; right; apply nth_In; lia|]. split; [|apply conn_refl]. exists 0. apply (lf_slot L). exact Hr.
      - intros p Hp. rewrite (kept_slot (lf_kept L) (si_nodes I Hp)). apply (si_slot I Hp).
      - intros m m' e Hm E1 E2 K. pose proof (si_nodes I K) as Nm'. pose proof (k_sep (lf_kept L) Nm' E2 E1) as Nm.
        apply (kept_on e (lf_kept L) Nm) in E1. apply (kept_on e (lf_kept L) Nm') in E2. apply (si_sep I Hm E1 E2 K).
      - intros x Hx. apply in_or_app. destruct (leaf_loose_back L (proj2 LVn) Hx) as [Q|Q]; [left; apply (si_open I) in Q; rewrite app_nil_r in Q; exact Q|right; exact Q].
    Qed.

    (** one literal: a copy node joins a leg of the clause and the end of the variable *)
    Lemma copy_sum (g : list nat -> R) w : w < 2 -> lsum (idxs [2; 2]) (fun vs => g vs *! elt (copy_tensor (R := R) 3 2) (vs ++ [w])) = g [w; w].
    Proof.
      intros Hw. change (idxs [2; 2]) with [[0; 0]; [0; 1]; [1; 0]; [1; 1]]. rewrite !lsum_cons, lsum_nil.
      destruct w as [|[|]]; [| |lia]; cbn; ring.
    Qed.

    Lemma sinv_literal s ns vars c cs F cn i k x xs : sinv s ns vars (c :: cs) F -> k < length vars -> slot s (cn, i) = Some c -> k = Z.abs_nat x - 1 ->
      exists s' n out, join_lits (R := R) cn i (x :: xs) vars s = join_lits cn (S i) xs (replace_nth k out vars) s' /\
        sinv s' (ns ++ [n]) (replace_nth k out vars) cs (fun ys rs => F ys (nth k ys 0 :: rs)) /\
        (forall m m', connected s m m' -> connected s' m m') /\ on s' n out /\
        (forall h, on s h (nth k vars 0) -> connected s' h n) /\ (forall h, on s h c -> connected s' h n) /\
        (forall p y, slot s p = Some y -> y <> c -> y <> nth k vars 0 -> slot s' p = Some y).
    Proof.
      intros I Hk Hc Ek. set (v := nth k vars 0).
      assert (In v vars) as Hv by (apply nth_In, Hk).
      pose proof (si_nodup I) as ND.
      assert (v <> c) as Hvc.
      { intros E. apply NoDup_app_iff in ND. destruct ND as (_ & _ & D). apply (D v Hv). rewrite E. left. reflexivity. }
      pose proof (si_loose I) as HL. destruct (si_new I) as [N1 N2].
      destruct (HL v ltac:(apply in_or_app; left; exact Hv)) as [Lv Dv].
      destruct (HL c ltac:(apply in_or_app; right; left; reflexivity)) as [Lc Dc].
      assert (live s ns) as LVn.
      { destruct (si_live I) as [Q1 Q2]. apply NoDup_app_iff in Q1. split; [apply Q1|]. intros m Hm. apply Q2, in_or_app. right. exact Hm. }
      assert (forall y, loose s ns y -> loose s (ns0 ++ ns) y) as Lapp.
      { intros y (p & P1 & P2). exists p. split; [apply in_or_app; right; exact P1|exact P2]. }
      destruct (leaf_new (copy_tensor (R := R) 3 2) (si_wf I)) as (s1 & n & H1 & L & Hne). cbn [rank shape copy_tensor repeat length] in L, Hne.
      set (b := s_ne s) in *. change (seq b (rank (copy_tensor (R := R) 3 2))) with [b; S b; S (S b)] in L.
      set (c0 := b) in *. set (c1 := S b) in *. set (out := S (S b)) in *.
      assert (forall y, loose s ns y -> y < b) as Hlt by (intros y (p & _ & Q & _); apply (slot_lt (si_wf I) Q)).
      assert (forall t, t < 3 -> edim s1 (b + t) = 2) as Dn.
      { intros t Ht. pose proof (leaf_dim L (k := t) Ht) as Q. destruct t as [|[|[|]]]; [| | |lia]; cbn in Q; (etransitivity; [|exact Q]); f_equal; unfold c0, c1, out; lia. }
      assert (Forall2 (fun e f => edim s e = edim s1 f) [c; v] [c0; c1]) as FD.
      { constructor; [rewrite Dc; symmetry; replace c0 with (b + 0) by (unfold c0; lia); apply Dn; lia|]. constructor; [|constructor]. rewrite Dv. symmetry. replace c1 with (b + 1) by (unfold c1; lia). apply Dn. lia. }
      assert (NoDup [c; v]) as NDe by (repeat constructor; cbn; intuition congruence).
      assert (NoDup [c0; c1]) as NDf by (repeat constructor; unfold c0, c1; cbn; lia).
      destruct (@attach_ok R s s1 (ns0 ++ ns) (copy_tensor 3 2) n [c0; c1; out] [c; v] [c0; c1] (si_wf I) (si_live I) L NDe) as (s' & H2 & J & A).
      { intros y [<-|[<-|[]]]; apply Lapp; assumption. }
      { exact NDf. }
      { intros y [<-|[<-|[]]]; cbn; auto. }
      { exact FD. }
      assert (forall y, In y ([c; v] ++ [c0; c1]) -> loose s1 (ns ++ [n]) y) as L1.
      { intros y [<-|[<-|[<-|[<-|[]]]]]; [apply (beside_old L LVn Lc)|apply (beside_old L LVn Lv)| |]; apply (beside_new ns L); cbn; auto. }
      assert (forall y, In y ([c; v] ++ [c0; c1]) -> dangles s1 y) as D1 by (intros y Hy; apply (loose_dangles (L1 y Hy))).
      assert (forall h y, on s h y -> on s1 h y) as Kon by (intros h y; apply (leaf_on_old L)).
      assert (forall m m', connected s m m' -> connected s' m m') as Kconn.
      { intros m m' K. apply (joined_conn (lf_wf L) J D1), (leaf_conn L), K. }
      assert (forall p y, slot s p = Some y -> slot s1 p = Some y) as Kslot.
      { intros p y Hp. rewrite (kept_slot (lf_kept L)); [exact Hp|]. intros K. unfold slot in Hp. rewrite K in Hp. discriminate. }
      assert (forall p y, slot s p = Some y -> y <> c -> y <> v -> slot s' p = Some y) as Keep.
      { intros p y Hp E1 E2. pose proof (slot_lt (si_wf I) Hp) as Q. apply (jn_slot J (Kslot _ _ Hp)). unfold c0, c1. cbn. fold b in Q. lia. }
      assert (slot s1 (n, 0) = Some c0 /\ slot s1 (n, 1) = Some c1 /\ slot s1 (n, 2) = Some out) as (S0 & S1 & S2).
      { split; [|split]; [apply (lf_slot L (k := 0))|apply (lf_slot L (k := 1))|apply (lf_slot L (k := 2))]; cbn; lia. }
      assert (slot s' (n, 2) = Some out) as S2' by (apply (jn_slot J S2); pose proof (Hlt _ Lc); pose proof (Hlt _ Lv); unfold c0, c1, out; cbn; lia).
      assert (forall h, on s h v -> connected s' h n) as Pv.
      { intros h Hh. apply (@joined_pair R s1 s' [c; v] [c0; c1] v c1 h n (lf_wf L) J D1); [cbn; auto|apply Kon, Hh|exists 1; exact S1]. }
      assert (forall h, on s h c -> connected s' h n) as Pc.
      { intros h Hh. apply (@joined_pair R s1 s' [c; v] [c0; c1] c c0 h n (lf_wf L) J D1); [cbn; auto|apply Kon, Hh|exists 0; exact S0]. }
      exists s', n, out. split; [|split; [|split; [exact Kconn|split; [exists 2; exact S2'|split; [|split; [|exact Keep]]]]]].
      - cbn [join_lits]. rewrite <- Ek. unfold bind at 1, new_copy_node. rewrite H1. unfold bind at 1. rewrite (edge_of_slot (Kslot _ _ Hc)).
        unfold bind at 1. rewrite (edge_of_slot S0). cbn [connects] in H2. unfold bind at 1 in H2. unfold bind at 1.
        destruct (connect c c0 s1) as [s2 [g|]] eqn:E; [|discriminate].
        rewrite (nth_error_nth' vars 0 Hk). fold v.
        destruct (connect_inv (lf_wf L) (ex_intro _ _ (Kslot _ _ Hc)) (ex_intro _ _ S0) E) as (p & q & C).
        assert (slot s2 (n, 1) = Some c1) as S1'.
        { rewrite (cp_slot C). pose proof (cp_p1 C). pose proof (cp_p2 C). destruct (slot_eqb_spec (n, 1) p) as [<-|]; [pose proof (Hlt _ Lc); unfold c1 in *; rewrite S1 in *; injection H as ?; lia|].
          destruct (slot_eqb_spec (n, 1) q) as [<-|]; [rewrite S1 in *; injection H0 as ?; unfold c0, c1 in *; lia|]. exact S1. }
        unfold bind at 1. rewrite (edge_of_slot S1'). unfold bind in H2 |- *. destruct (connect v c1 s2) as [s3 [g'|]]; [|discriminate].
        cbn [connects ret] in H2. injection H2 as ->. rewrite (edge_of_slot S2'). reflexivity.
      - assert (length (replace_nth k out vars) = length vars) as Hlen by apply replace_nth_length.
        assert (forall x0, In x0 (replace_nth k out vars) -> x0 = out \/ (In x0 vars /\ x0 <> v)) as Hrep.
        { intros y Hy. destruct (In_nth _ _ 0 Hy) as (j & Hj & <-). rewrite Hlen in Hj. rewrite nth_replace by exact Hk. destruct (Nat.eqb_spec j k) as [->|Hjk]; [left; reflexivity|].
          right. split; [apply nth_In, Hj|]. unfold v. intros Q. apply NoDup_app_iff in ND. apply Hjk. apply (proj1 (NoDup_nth vars 0) (proj1 ND)); auto. }
        assert (forall y, In y (vars ++ c :: cs) -> y < b) as Hb by (intros y Hy; apply Hlt, HL, Hy).
        assert (In out (replace_nth k out vars)) as Hout.
        { assert (nth k (replace_nth k out vars) 0 = out) as Q by (rewrite nth_replace by exact Hk; rewrite Nat.eqb_refl; reflexivity).
          pose proof (nth_In (replace_nth k out vars) 0 (n := k)) as Q2. rewrite Q in Q2. apply Q2. rewrite Hlen. exact Hk. }
        assert (forall y, In y (replace_nth k out vars ++ cs) -> y = out \/ (In y (vars ++ c :: cs) /\ y <> v /\ y <> c)) as Hcase.
        { pose proof ND as ND'. apply NoDup_app_iff in ND'. destruct ND' as (D1' & D2' & D3'). intros y Hy. apply in_app_or in Hy. destruct Hy as [Hy|Hy].
          - destruct (Hrep y Hy) as [->|[Q1 Q2]]; [left; reflexivity|]. right. split; [apply in_or_app; left; exact Q1|]. split; [exact Q2|]. intros ->. apply (D3' c Q1). left. reflexivity.
          - right. split; [apply in_or_app; right; right; exact Hy|]. split; [intros ->; apply (D3' v Hv); right; exact Hy|]. intros ->. apply NoDup_cons_iff in D2'. tauto. }
        assert (forall y, loose s ns y -> y <> c -> y <> v -> loose s' (ns ++ [n]) y /\ edim s' y = edim s y) as Hold.
        { intros y Ly Q1 Q2. destruct (at_old A (Lapp y Ly)) as [P1 P2]; [cbn; intuition congruence|]. split; [|exact P2].
          apply (joined_loose J (beside_old L LVn Ly)); [pose proof (Hlt y Ly); rewrite Hne; lia|]. pose proof (Hlt y Ly). unfold c0, c1. cbn. lia. }
        assert (loose s' (ns ++ [n]) out /\ edim s' out = 2) as Hnew.
        { assert (~ In out ([c; v] ++ [c0; c1])) as Q by (pose proof (Hlt _ Lc); pose proof (Hlt _ Lv); unfold c0, c1, out; cbn; lia).
          assert (loose s1 (ns ++ [n]) out) as Q2 by (apply (beside_new ns L); cbn; auto).
          split; [apply (joined_loose J Q2); [rewrite Hne; unfold out; lia|exact Q]|]. rewrite (joined_edim (lf_wf L) J Q2 Q). unfold out. replace (S (S b)) with (b + 2) by lia. apply Dn. lia. }
        split.
        + apply (at_wf A).
        + rewrite app_assoc. apply (at_live A).
        + intros m Hm. apply in_app_or in Hm. destruct Hm as [Hm|[<-|[]]]; [apply (si_fresh I), Hm|]. intros K. apply (lf_fresh L), (si_nodes I), K.
        + intros m Hm. apply (at_nodes A), (si_nodes I), Hm.
        + pose proof ND as ND'. apply NoDup_app_iff in ND'. destruct ND' as (D1' & D2' & D3'). apply NoDup_app_iff. split; [|split].
          * apply (NoDup_nth _ 0). rewrite Hlen. intros i1 i2 H1' H2' Q. rewrite !nth_replace in Q by exact Hk. destruct (Nat.eqb_spec i1 k), (Nat.eqb_spec i2 k); try congruence.
            -- pose proof (Hb (nth i2 vars 0) ltac:(apply in_or_app; left; apply nth_In; exact H2')). unfold out in *. lia.
            -- pose proof (Hb (nth i1 vars 0) ltac:(apply in_or_app; left; apply nth_In; exact H1')). unfold out in *. lia.
            -- apply (proj1 (NoDup_nth vars 0) D1'); assumption.
          * apply NoDup_cons_iff in D2'. tauto.
          * intros y Hy Hy'. destruct (Hrep y Hy) as [->|[Q1 _]]; [pose proof (Hb out ltac:(apply in_or_app; right; right; exact Hy')); unfold out in *; lia|]. apply (D3' y Q1). right. exact Hy'.
        + intros y Hy. destruct (Hcase y Hy) as [->|(Q1 & Q2 & Q3)]; [exact Hnew|]. destruct (HL y Q1) as [P1 P2]. destruct (Hold y P1 Q3 Q2) as [P3 P4]. split; [exact P3|congruence].
        + split; [pose proof (jn_ne J); unfold c0, b in *; lia|]. intros y Hy. destruct (Hcase y Hy) as [->|(Q1 & _)]; [unfold out, b; lia|apply N2, Q1].
        + intros y Hy. destruct (si_rest I Hy) as [Q1 Q2]. rewrite app_assoc. destruct (at_old A Q1) as [P1 P2]; [|split; [exact P1|congruence]].
          assert (y < s_ne s0) as Q by (destruct Hy as (p & _ & Hp & _); apply (slot_lt W0 Hp)).
          pose proof (N2 v ltac:(apply in_or_app; left; exact Hv)). pose proof (N2 c ltac:(apply in_or_app; right; left; reflexivity)). cbn. lia.
        + intros a Ha. rewrite app_assoc, (at_val A). cbn [map]. rewrite Dc, Dv.
          assert (a out < 2) as Ho by (apply Ha, in_or_app; left; exact Hout).
          assert (nth k (map a (replace_nth k out vars)) 0 = a out) as Hnth.
          { rewrite (nth_indep _ 0 (a 0)) by (rewrite map_length, Hlen; exact Hk). rewrite map_nth, nth_replace by exact Hk. rewrite Nat.eqb_refl. reflexivity. }
          transitivity (lsum (idxs [2; 2]) (fun vs => netval s (ns0 ++ ns) (binds Nat.eq_dec a [c; v] vs) *! elt (copy_tensor (R := R) 3 2) (vs ++ [a out]))).
          * apply lsum_ext. intros vs Hvs. f_equal. f_equal. change (idxs [2; 2]) with [[0; 0]; [0; 1]; [1; 0]; [1; 1]] in Hvs.
            assert (exists v1 v2, vs = [v1; v2]) as (v1 & v2 & ->) by (destruct Hvs as [<-|[<-|[<-|[<-|[]]]]]; eauto).
            cbn [binds app map]. unfold upd. unfold c0, c1, out.
            repeat (destruct (Nat.eq_dec _ _); try lia). reflexivity.
          * rewrite copy_sum by exact Ho. set (bb := binds Nat.eq_dec a [c; v] [a out; a out]).
            assert (bb c = a out /\ bb v = a out /\ forall y, y <> c -> y <> v -> bb y = a y) as (Bc & Bv & By).
            { unfold bb. cbn [binds]. unfold upd. split; [|split].
              - destruct (Nat.eq_dec c v); [congruence|]. destruct (Nat.eq_dec c c); congruence.
              - destruct (Nat.eq_dec v v); congruence.
              - intros y Q1 Q2. destruct (Nat.eq_dec y v); [congruence|]. destruct (Nat.eq_dec y c); congruence. }
            rewrite (si_val I).
            -- unfold bb at 1. rewrite (old_value a). 2: { intros y [<-|[<-|[]]]; apply N2, in_or_app; [right; left|left]; auto. }
               f_equal. rewrite Hnth. cbn [map]. rewrite Bc. f_equal.
               ++ apply (nth_ext _ _ 0 0); [rewrite !map_length; symmetry; exact Hlen|]. rewrite map_length. intros j Hj.
                  rewrite (nth_indep (map bb vars) 0 (bb 0)) by (rewrite map_length; exact Hj). rewrite map_nth.
                  rewrite (nth_indep (map a _) 0 (a 0)) by (rewrite map_length, Hlen; exact Hj). rewrite map_nth, nth_replace by exact Hk.
                  destruct (Nat.eqb_spec j k) as [->|Hjk]; [exact Bv|]. apply NoDup_app_iff in ND. destruct ND as (D1' & D2' & D3').
                  apply By; intros Q; [apply (D3' c); [rewrite <- Q; apply nth_In, Hj|left; reflexivity]|]. apply Hjk, (proj1 (NoDup_nth vars 0) D1'); auto.
               ++ f_equal. apply map_ext_in. intros y Hy. apply NoDup_app_iff in ND. destruct ND as (D1' & D2' & D3'). apply By; intros ->.
                  ** apply NoDup_cons_iff in D2'. tauto.
                  ** apply (D3' v Hv). right. exact Hy.
            -- intros y Hy. destruct (Nat.eq_dec y c) as [->|Q1]; [rewrite Bc; exact Ho|]. destruct (Nat.eq_dec y v) as [->|Q2]; [rewrite Bv; exact Ho|].
               rewrite By by assumption. apply Ha. apply in_or_app. apply in_app_or in Hy. destruct Hy as [Hy|[Hy|Hy]]; [|congruence|right; exact Hy].
               left. destruct (In_nth _ _ 0 Hy) as (j & Hj & <-). assert (j <> k) as Hjk by (intros ->; apply Q2; reflexivity).
               assert (nth j (replace_nth k out vars) 0 = nth j vars 0) as <- by (rewrite nth_replace by exact Hk; destruct (Nat.eqb_spec j k); [contradiction|reflexivity]).
               apply nth_In. rewrite Hlen. exact Hj.
        + intros m m' K. apply Kconn, (si_conn I), K.
        + apply (@joined_closed R s1 s' [c; v] [c0; c1] (fun m => In m (ns ++ [n])) (lf_wf L) J).
          * intros y Hy. split; [apply D1, Hy|]. destruct (loose_on (L1 y Hy)) as (m & Q). exists m. exact Q.
          * apply (leaf_closed L (proj2 LVn) (si_closed I)).
        + assert (forall h y, on s h y -> In y (vars ++ c :: cs) -> exists z h', In z (replace_nth k out vars ++ cs) /\ on s' h' z /\ connected s' h h') as Hz.
          { intros h y Hy Hin. destruct (Nat.eq_dec y c) as [->|Q1].
            { exists out, n. split; [apply in_or_app; left; exact Hout|]. split; [exists 2; exact S2'|]. apply (Pc h Hy). }
            destruct (Nat.eq_dec y v) as [->|Q2].
            { exists out, n. split; [apply in_or_app; left; exact Hout|]. split; [exists 2; exact S2'|]. apply (Pv h Hy). }
            exists y, h. split; [|split; [|apply conn_refl]].
            - apply in_or_app. apply in_app_or in Hin. destruct Hin as [Hy'|[Hy'|Hy']]; [|congruence|right; exact Hy'].
              left. destruct (In_nth _ _ 0 Hy') as (j & Hj & <-). assert (j <> k) as Hjk by (intros ->; apply Q2; reflexivity).
              assert (nth j (replace_nth k out vars) 0 = nth j vars 0) as E by (rewrite nth_replace by exact Hk; destruct (Nat.eqb_spec j k); [contradiction|reflexivity]).
              pose proof (nth_In (replace_nth k out vars) 0 (n := j)) as Q. rewrite E in Q. apply Q. rewrite Hlen. exact Hj.
            - destruct Hy as (q & Hq). exists q. apply Keep; assumption. }
          intros m Hm. apply in_app_or in Hm. destruct Hm as [Hm|[<-|[]]].
          * destruct (si_reach I Hm) as (y & h & Y1 & Y2 & Y3). destruct (Hz h y Y2 Y1) as (z & h' & Z1 & Z2 & Z3). exists z, h'. split; [exact Z1|]. split; [exact Z2|].
            apply (connected_trans (Kconn _ _ Y3) Z3).
          * exists out, n. split; [apply in_or_app; left; exact Hout|]. split; [exists 2; exact S2'|apply conn_refl].
        + intros p Hp. rewrite <- (si_slot I Hp). destruct (slot s p) as [y|] eqn:E.
          * apply Keep; [exact E|intros ->|intros ->]; rewrite (si_slot I Hp) in E; apply (slot_lt W0) in E.
            -- pose proof (N2 c ltac:(apply in_or_app; right; left; reflexivity)). lia.
            -- pose proof (N2 v ltac:(apply in_or_app; left; exact Hv)). lia.
          * rewrite <- (kept_slot (lf_kept L) (si_nodes I Hp)) in E. pose proof (jn_same J (fst p)) as Q. unfold slot in *.
            destruct (s_nodes s1 (fst p)) as [a1|], (s_nodes s' (fst p)) as [b1|]; try tauto; try discriminate. destruct Q as (_ & _ & Q). apply nth_error_None. apply nth_error_None in E. lia.
        + apply (@joined_closed R s1 s' [c; v] [c0; c1] (fun m => ~ is_node s0 m) (lf_wf L) J).
          * intros y Hy. split; [apply D1, Hy|]. destruct (loose_on (L1 y Hy)) as (m & Q1 & Q2). exists m. split; [|exact Q2].
            apply in_app_or in Q1. destruct Q1 as [Q1|[<-|[]]]; [apply (si_fresh I Q1)|]. intros K. apply (lf_fresh L), (si_nodes I), K.
          * intros m m' e Hm E1 E2 K. pose proof (si_nodes I K) as Nm'. pose proof (k_sep (lf_kept L) Nm' E2 E1) as Nm.
            apply (kept_on e (lf_kept L) Nm) in E1. apply (kept_on e (lf_kept L) Nm') in E2. apply (si_sep I Hm E1 E2 K).
        + intros y Hy. destruct (joined_loose_back (lf_wf L) J D1 Hy) as [Q1 Q2]. apply in_or_app. destruct (leaf_loose_back L (proj2 LVn) Q1) as [Q3|Q3].
          * apply (si_open I) in Q3. apply in_app_or in Q3. destruct Q3 as [Q3|[Q3|Q3]]; [left|elim Q2; rewrite Q3; cbn; auto|right; exact Q3].
            destruct (In_nth _ _ 0 Q3) as (j & Hj & Ej). assert (j <> k) as Hjk by (intros ->; apply Q2; rewrite <- Ej; cbn; auto).
            assert (nth j (replace_nth k out vars) 0 = y) as <- by (rewrite nth_replace by exact Hk; destruct (Nat.eqb_spec j k); [contradiction|exact Ej]).
            apply nth_In. rewrite Hlen. exact Hj.
          * left. destruct Q3 as [Q3|[Q3|[Q3|[]]]]; [elim Q2; rewrite <- Q3; cbn; auto|elim Q2; rewrite <- Q3; cbn; auto|rewrite <- Q3; exact Hout].
      - exact Pv.
      - exact Pc.
    Qed.
  End Inv.
End SF.
