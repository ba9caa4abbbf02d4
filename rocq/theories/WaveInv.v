(** * WaveInv: the network of a circuit while it is built *)
From Coq Require Import Permutation List Lia.
From Verif Require Import Prelude Algebra Tensor TensorFacts Einsum EinsumFacts NetworkFacts Graph GraphBase GraphConnect GraphContract GraphOps GraphValue GraphLaws GraphJoin GraphQuery GraphQueryFacts GraphCopy GraphCopyFacts GraphDensity GraphTotal Quantum QuantumSpec QuantumFacts QuantumJoin QuantumMake Stitch Fft FftStitch FftFacts SatFacts Wave WaveSpec WaveFacts.
Import ListNotations.
Set Implicit Arguments.
Unset Strict Implicit.

Section WI.
  Context {R : cjr}.
  Notation st := (@st R).
  Notation M := (@M R).
  Implicit Types (s : st) (e f g : eid) (n m : nid).
  Notation "x *! y" := (rmul x y) (at level 40, left associativity).
  Add Ring Rwi : (rsr R).

  (** ** plain nodes and links through new nodes and new edges *)
  Lemma leaf_slot_old s s1 (t : tensor R) n nes p x : leaf s s1 t n nes -> slot s p = Some x -> slot s1 p = Some x.
  Proof.
    intros L H. rewrite (kept_slot (lf_kept L)); [exact H|]. unfold slot in H. unfold is_node. destruct (s_nodes s (fst p)); [discriminate|discriminate].
  Qed.
  Lemma leaf_between s s1 (t : tensor R) n nes a b x : leaf s s1 t n nes -> between s a b x -> between s1 a b x.
  Proof. intros L (p & q & H & H1 & H2 & H3 & H4). exists p, q. split; [exact H|]. split; [exact H1|]. split; [exact H2|]. split; eapply leaf_slot_old; eauto. Qed.
  Lemma joined_between s s' es fs a b x : wf s -> joined s s' es fs -> (forall y, In y (es ++ fs) -> dangles s y) -> between s a b x -> between s' a b x.
  Proof.
    intros W J D (p & q & H & H1 & H2 & H3 & H4). exists p, q. split; [exact H|]. split; [exact H1|]. split; [exact H2|].
    assert (~ In x (es ++ fs)) as Hn by (intros K; apply H; exact (dangles_one W (D x K) H3 H4)).
    split; apply (jn_slot J); assumption.
  Qed.
  Lemma slot_node s p x : slot s p = Some x -> is_node s (fst p).
  Proof. unfold slot, is_node. destruct (s_nodes s (fst p)); discriminate. Qed.
  Lemma leaf_self s s1 (t : tensor R) n nes m x : leaf s s1 t n nes -> (is_node s m -> forall y, ~ between s m m y) -> is_node s m \/ m = n -> ~ between s1 m m x.
  Proof.
    intros L Hs Hm (p & q & Hne & Hp & Hq & H3 & H4). destruct Hm as [Hm| ->].
    - apply (Hs Hm x). exists p, q. split; [exact Hne|]. split; [exact Hp|]. split; [exact Hq|].
      rewrite <- (kept_slot (lf_kept L)) by congruence. rewrite <- (kept_slot (s := s) (p := q) (lf_kept L)) by congruence. auto.
    - destruct p as [p1 i], q as [q1 j]. cbn [fst] in *. subst p1 q1. unfold slot in H3, H4. cbn [fst snd] in *. rewrite (lf_node L) in H3, H4. cbn [n_edges] in *.
      apply Hne. f_equal. pose proof (proj1 (NoDup_nth_error nes) (lf_nodup L) i j) as Q. apply Q; [apply nth_error_Some; congruence|congruence].
  Qed.
  Lemma joined_slot_back s s' es fs p x : joined s s' es fs -> slot s' p = Some x -> exists y, slot s p = Some y.
  Proof.
    intros J H. pose proof (jn_same J (fst p)) as Q. unfold slot in *. destruct (s_nodes s' (fst p)) as [b|]; [|discriminate].
    destruct (s_nodes s (fst p)) as [a|]; [|contradiction]. destruct Q as (_ & _ & Q). destruct (nth_error (n_edges a) (snd p)) as [y|] eqn:E; [exists y; reflexivity|].
    exfalso. apply nth_error_None in E. assert (nth_error (n_edges b) (snd p) <> None) as K by congruence. apply nth_error_Some in K. lia.
  Qed.
  Lemma Forall2_at A B (P : A -> B -> Prop) l l' x : Forall2 P l l' -> (In x l -> exists y, In (x, y) (combine l l') /\ P x y).
  Proof.
    induction 1 as [|a b l l' H _ IH]; cbn; [intros []|]. intros [->|K]; [exists b; auto|]. destruct (IH K) as (y & Q1 & Q2). exists y. auto.
  Qed.
  Lemma Forall2_at' A B (P : A -> B -> Prop) l l' y : Forall2 P l l' -> (In y l' -> exists x, In (x, y) (combine l l') /\ P x y).
  Proof.
    induction 1 as [|a b l l' H _ IH]; cbn; [intros []|]. intros [->|K]; [exists a; auto|]. destruct (IH K) as (x & Q1 & Q2). exists x. auto.
  Qed.
  (** edges between different nodes make no loop *)
  Lemma joined_self s s' es fs m x : wf s -> joined s s' es fs -> (forall y, In y (es ++ fs) -> dangles s y) ->
    (forall e f, In (e, f) (combine es fs) -> forall h, on s h e -> on s h f -> False) -> (forall y, ~ between s m m y) -> ~ between s' m m x.
  Proof.
    intros W J D Hd Hs (p & q & Hne & Hp & Hq & H3 & H4).
    assert (forall z y, slot s z = Some y -> In y (es ++ fs) -> exists g ed, slot s' z = Some g /\ s_ne s <= g /\ s_edges s' g = Some ed /\
      exists m2 a2, e_2 ed = Some (m2, a2) /\ (fst z = e_n1 ed \/ fst z = m2) /\ e_n1 ed <> m2) as New.
    { intros z y Hz Hy. pose proof (D y Hy) as Dy. apply in_app_or in Hy. destruct Hy as [Hy|Hy].
      - destruct (Forall2_at (jn_pair J) Hy) as (f & Hc & g & p0 & q0 & Q1 & Q2 & Q3 & Q4 & Q5 & Q6).
        pose proof (dangles_one W Dy Hz Q2) as E. subst p0. exists g, (Edge (fst z) (snd z) (Some q0) false). split; [exact Q4|]. split; [exact Q1|]. split; [exact Q6|].
        destruct q0 as [m2 a2]. exists m2, a2. split; [reflexivity|]. cbn [e_n1]. split; [left; reflexivity|]. intros E. destruct z as [z1 z2]. cbn [fst] in *.
        apply (Hd _ _ Hc z1); [exists z2; exact Hz|exists a2; congruence].
      - destruct (Forall2_at' (jn_pair J) Hy) as (e & Hc & g & p0 & q0 & Q1 & Q2 & Q3 & Q4 & Q5 & Q6).
        pose proof (dangles_one W Dy Hz Q3) as E. subst q0. exists g, (Edge (fst p0) (snd p0) (Some z) false). split; [exact Q5|]. split; [exact Q1|]. split; [exact Q6|].
        destruct z as [m2 a2]. exists m2, a2. split; [reflexivity|]. cbn [e_n1 fst]. split; [right; reflexivity|]. intros E. destruct p0 as [z1 z2]. cbn [fst] in *.
        apply (Hd _ _ Hc m2); [exists z2; congruence|exists a2; exact Hz]. }
    destruct (joined_slot_back J H3) as (y & Hy). destruct (joined_slot_back J H4) as (z & Hz).
    destruct (in_dec Nat.eq_dec y (es ++ fs)) as [Iy|Iy].
    - destruct (New p y Hy Iy) as (g & ed & G1 & G2 & G3 & m2 & a2 & G4 & G5 & G6). assert (g = x) by congruence. subst g.
      assert (on s' m x) as Ho by (exists (snd p); destruct p; cbn [fst snd] in *; congruence).
      destruct (kinds (jn_wf J) Ho G3) as [(K & _)|(m3 & a3 & K1 & _ & _ & _ & _ & K)]; [congruence|]. rewrite G4 in K1. injection K1 as <- <-.
      destruct (proj1 (K m m)) as [[E1 E2]|[E1 E2]]; [exists p, q; auto| |]; congruence.
    - pose proof (jn_slot J Hy Iy) as Hy'. assert (y = x) by congruence. subst y.
      destruct (in_dec Nat.eq_dec z (es ++ fs)) as [Iz|Iz].
      + destruct (New q z Hz Iz) as (g & ed & G1 & G2 & _). assert (g = x) by congruence. subst g. apply (slot_lt W) in Hy. lia.
      + pose proof (jn_slot J Hz Iz) as Hz'. assert (z = x) by congruence. subst z. apply (Hs x). exists p, q. auto.
  Qed.

  Record winv s (ns : list nid) (state : list eid) (P : tensor R) : Prop := {
    wi_wf : wf s;
    wi_live : live s ns;
    wi_nodup : NoDup state;
    wi_loose : forall x, In x state <-> loose s ns x;
    wi_dims : map (edim s) state = shape P;
    wi_closed : forall m m' e, In m ns -> on s m e -> on s m' e -> In m' ns;
    wi_plain : forall m e, In m ns -> ~ between s m m e;
    wi_name : forall m, In m ns -> nameable s m;
    wi_link : forall pre m post, ns = pre ++ m :: post -> pre <> [] -> exists h e, In h pre /\ between s h m e;
    wi_val : forall a, netval s ns a = elt P (map a state)
  }.

  Lemma winv_start s psi : wf s -> exists s1 n state, new_node psi None s = (s1, Some n) /\ node_edges n s1 = (s1, Some state) /\ winv s1 [n] state psi.
  Proof.
    intros W. destruct (leaf_ok psi W) as (s1 & n & es & H & L). exists s1, n, es. split; [exact H|].
    split; [unfold node_edges, bind, get_node; rewrite (lf_node L); reflexivity|].
    assert (forall x, In x es <-> loose s1 [n] x) as Hlo.
    { intros x. split.
      - intros Hx. apply (beside_new [] L Hx).
      - intros (p & [Hp|[]] & Q & _). apply (leaf_on L). exists (snd p). destruct p; cbn [fst snd] in *. congruence. }
    split.
    - apply (lf_wf L).
    - split; [constructor; [intros []|constructor]|]. intros m [<-|[]]. unfold is_node. rewrite (lf_node L). discriminate.
    - apply (lf_nodup L).
    - exact Hlo.
    - apply (nth_ext _ _ 0 0); [rewrite map_length; apply (lf_len L)|]. rewrite map_length, (lf_len L). intros k Hk.
      rewrite (nth_indep _ 0 (edim s1 0)) by (rewrite map_length, (lf_len L); exact Hk). rewrite map_nth. apply (leaf_dim L Hk).
    - intros m m' e [<-|[]] H1 H2. apply (leaf_on L) in H1. destruct (lf_open L H1) as (k & Hk & Q). destruct H2 as (j & Hj). apply Q in Hj. injection Hj as -> _. left; reflexivity.
    - intros m e [<-|[]]. apply (leaf_self L); [|right; reflexivity]. intros K. destruct (lf_fresh L K).
    - intros m [<-|[]] nd E. rewrite (lf_node L) in E. injection E as <-. cbn [n_edges n_names]. rewrite seq_length, (lf_len L). lia.
    - intros pre m post E Hp. destruct pre as [|x [|y pre]]; [congruence|discriminate|discriminate].
    - intros a. apply (leaf_value L).
  Qed.

  Lemma window_length N n1 w pbc : length (window N n1 w pbc) = w.
  Proof. unfold window. rewrite map_length, seq_length. reflexivity. Qed.
  Lemma nth_map_0 (g : nat -> nat) l k : k < length l -> nth k (map g l) 0 = g (nth k l 0).
  Proof. intros H. rewrite (nth_indep _ 0 (g 0)) by (rewrite map_length; exact H). apply map_nth. Qed.

  Lemma nth_skip (l : list nat) w k : nth k (skipn w l) 0 = nth (w + k) l 0.
  Proof. revert w. induction l as [|x l IH]; intros [|w]; cbn; try reflexivity; [destruct k; reflexivity|]. apply IH. Qed.
  Lemma nth_first (l : list nat) w k : k < w -> nth k (firstn w l) 0 = nth k l 0.
  Proof. revert w k. induction l as [|x l IH]; intros [|w] [|k] H; cbn; try reflexivity; try lia. apply IH. lia. Qed.

  Lemma winv_step s ns state P op n1 pbc : winv s ns state P -> ns <> [] -> takes (window (rank P) n1 (rank op / 2) pbc) op P ->
    exists s' n state', apply_op_network state op n1 pbc s = (s', Some (state', n)) /\
      winv s' (ns ++ [n]) state' (act (window (rank P) n1 (rank op / 2) pbc) op P).
  Proof.
    intros I Hns. set (w := rank op / 2). set (ts := window (rank P) n1 w pbc). intros (NDt & Hr & Hw & Hrk & Hsk).
    assert (length ts = w) as Lts by apply window_length. rewrite Lts in Hw, Hrk, Hsk.
    pose proof (wi_wf I) as W. pose proof (wi_live I) as LV. pose proof (wi_nodup I) as NDs.
    assert (length state = rank P) as Ls by (unfold rank; rewrite <- (wi_dims I), map_length; reflexivity).
    assert (forall j, In j ts -> j < length state) as Hr' by (intros j Hj; rewrite Ls; apply Hr, Hj).
    destruct (leaf_new op W) as (s1 & n & H1 & L & Hne).
    set (b0 := s_ne s) in *. set (nes := seq b0 (rank op)) in *.
    set (es := map (fun t => nth t state 0) ts). set (outs := map (fun i => b0 + i) (seq 0 w)). set (fs := map (fun i => b0 + (w + i)) (seq 0 w)).
    assert (forall k, k < rank op -> nth k nes 0 = b0 + k) as Hnth by (intros k Hk; apply seq_nth; exact Hk).
    assert (nes = outs ++ fs) as Hnes.
    { assert (forall d b c, seq (c + b) d = map (fun i => c + i) (seq b d)) as Q.
      { clear. induction d as [|d IH]; intros b c; cbn; [reflexivity|]. f_equal. rewrite <- IH. f_equal. lia. }
      unfold nes, fs, outs. rewrite Hrk, seq_app, <- Q, Nat.add_0_r. f_equal. rewrite <- (Nat.add_0_r (b0 + w)), Q. apply map_ext. intros; lia. }
    assert (length outs = w) as Lo by (unfold outs; rewrite map_length, seq_length; reflexivity).
    assert (length fs = w) as Lf by (unfold fs; rewrite map_length, seq_length; reflexivity).
    pose proof (lf_nodup L) as NDn. rewrite Hnes in NDn. apply NoDup_app_iff in NDn. destruct NDn as (NDo & NDf & Hfo).
    assert (forall j, In j ts -> In (nth j state 0) state) as Hin by (intros j Hj; apply nth_In, Hr', Hj).
    assert (forall j j', In j ts -> In j' ts -> nth j state 0 = nth j' state 0 -> j = j') as Hst.
    { intros j j' Hj Hj' Q. apply (proj1 (NoDup_nth state 0) NDs); auto. }
    assert (NoDup es) as NDe.
    { unfold es. clear - NDt Hst. induction ts as [|x ts IH]; cbn; constructor.
      - apply NoDup_cons_iff in NDt. intros K. apply in_map_iff in K. destruct K as (y & Q & Hy). apply Hst in Q; [|right; exact Hy|left; reflexivity]. subst. tauto.
      - apply NoDup_cons_iff in NDt. apply IH; [tauto|]. intros y z Hy Hz. apply Hst; right; assumption. }
    assert (forall x, In x es -> loose s ns x) as Hes by (intros x Hx; apply in_map_iff in Hx; destruct Hx as (y & <- & Hy); apply (wi_loose I), Hin, Hy).
    assert (map (edim s) es = skipn w (shape op)) as Hdim.
    { rewrite Hsk. unfold es. rewrite map_map. apply map_ext_in. intros j Hj. rewrite <- (wi_dims I). symmetry. apply nth_map_0, Hr', Hj. }
    assert (length es = w) as Le by (unfold es; rewrite map_length; exact Lts).
    assert (forall x, In x fs -> In x nes) as Hfs by (intros x Hx; rewrite Hnes; apply in_or_app; right; exact Hx).
    destruct (@attach_rev R s s1 ns op n nes es fs W LV L NDe Hes NDf Hfs) as (s' & H2 & J & A).
    { assert (map (edim s1) fs = map (edim s) es) as Q.
      { rewrite Hdim. apply (nth_ext _ _ 0 0); [rewrite map_length, skipn_length, Lf; unfold rank in Hrk; lia|]. rewrite map_length, Lf. intros k Hk.
        rewrite nth_map_0 by (rewrite Lf; exact Hk). unfold fs. rewrite nth_map_0 by (rewrite seq_length; exact Hk). rewrite seq_nth by exact Hk.
        rewrite <- Hnth by lia. rewrite (leaf_dim L) by lia. rewrite nth_skip. reflexivity. }
      clear - Q. revert Q. generalize es. induction fs as [|x l IH]; intros [|y l'] Q; try discriminate; constructor; cbn in Q; injection Q as Q1 Q2; auto. }
    set (state' := puts state ts outs).
    exists s', n, state'. split.
    { unfold apply_op_network, bind. rewrite H1. fold w.
      pose proof (@op_loop_ok R n w n1 pbc (fun i => b0 + i) (seq 0 w) state s1 s') as Q. cbn zeta in Q.
      assert (map (fun m => if pbc then (n1 + m) mod length state else n1 + m) (seq 0 w) = ts) as Et by (unfold ts, window; rewrite Ls; reflexivity).
      assert (forall m, In m (seq 0 w) -> In (if pbc then (n1 + m) mod length state else n1 + m) ts) as Htin.
      { intros m Hm. rewrite <- Et. apply (in_map (fun m => if pbc then (n1 + m) mod length state else n1 + m)). exact Hm. }
      rewrite Q; [rewrite Et; reflexivity|apply (lf_wf L)|apply seq_NoDup|rewrite Et; exact NDt| | | | | | |].
      - intros m Hm. split; [apply in_seq in Hm; lia|apply Hr', Htin, Hm].
      - intros m Hm. apply in_seq in Hm. split; rewrite (lf_slot L) by lia; f_equal; apply Hnth; lia.
      - intros i j K. lia.
      - intros m i Hm. pose proof (proj1 (wi_loose I _) (Hin _ (Htin m Hm))) as (p & _ & K & _). apply (slot_lt W) in K. fold b0 in K. lia.
      - intros m Hm. destruct (beside_old L LV (proj1 (wi_loose I _) (Hin _ (Htin m Hm)))) as (p & _ & K & _). exists p. exact K.
      - intros m m' Hm Hm' K. apply (Hst _ _ (Htin m Hm) (Htin m' Hm')) in K. rewrite <- Et in NDt.
        apply in_seq in Hm. apply in_seq in Hm'. set (tg := fun m => if pbc then (n1 + m) mod length state else n1 + m) in *.
        pose proof (proj1 (NoDup_nth (map tg (seq 0 w)) 0) NDt m m') as K2. rewrite map_length, seq_length in K2. apply K2; [lia|lia|].
        rewrite !nth_map_0, !seq_nth by (rewrite ?seq_length; lia). exact K.
      - replace (map (fun m => nth (if pbc then (n1 + m) mod length state else n1 + m) state 0) (seq 0 w)) with es; [exact H2|].
        unfold es. rewrite <- Et, map_map. reflexivity. }
    assert (length state' = rank P) as Hlen by (unfold state'; rewrite puts_length; exact Ls).
    assert (forall j, j < rank P -> (exists k, k < w /\ position j ts = Some k /\ j = nth k ts 0 /\ nth j state' 0 = nth k outs 0) \/ (position j ts = None /\ ~ In j ts /\ nth j state' 0 = nth j state 0)) as Cases.
    { intros j Hj. destruct (position j ts) as [k|] eqn:E.
      - left. destruct (position_some E) as [Hk Q]. rewrite Lts in Hk. exists k. split; [exact Hk|]. split; [reflexivity|]. split; [congruence|]. rewrite <- Q. apply puts_at; auto; lia.
      - right. split; [reflexivity|]. apply position_none in E. split; [exact E|]. apply puts_other; auto. }
    assert (forall x, In x state -> x < b0) as Hold by (intros x Hx; apply (wi_loose I) in Hx; destruct Hx as (p & _ & Q & _); apply (slot_lt W Q)).
    assert (forall k, k < w -> nth k outs 0 = b0 + k) as Hnew by (intros k Hk; unfold outs; rewrite nth_map_0 by (rewrite seq_length; exact Hk); rewrite seq_nth by exact Hk; reflexivity).
    assert (forall j, j < rank P -> ~ In j ts -> ~ In (nth j state 0) es) as Hnin.
    { intros j Hj Hn K0. apply in_map_iff in K0. destruct K0 as (j' & Q & Hj'). apply (proj1 (NoDup_nth state 0) NDs) in Q; auto; [|rewrite Ls; exact Hj]. subst. contradiction. }
    assert (NoDup state') as ND'.
    { apply (NoDup_nth state' 0). rewrite Hlen. intros i j Hi Hj Q. destruct (Cases i Hi) as [(k & Hk & _ & E1 & E2)|[_ [E1 E2]]], (Cases j Hj) as [(k' & Hk' & _ & E1' & E2')|[_ [E1' E2']]]; rewrite E2, E2' in Q.
      - rewrite !Hnew in Q by assumption. assert (k = k') by lia. congruence.
      - rewrite Hnew in Q by assumption. pose proof (Hold (nth j state 0) ltac:(apply nth_In; rewrite Ls; exact Hj)). lia.
      - rewrite Hnew in Q by assumption. pose proof (Hold (nth i state 0) ltac:(apply nth_In; rewrite Ls; exact Hi)). lia.
      - apply (proj1 (NoDup_nth state 0) NDs); auto; rewrite Ls; assumption. }
    assert (forall k, k < w -> loose s' (ns ++ [n]) (nth k outs 0) /\ edim s' (nth k outs 0) = nth k (shape op) 0) as Outs.
    { intros k Hk. rewrite Hnew by exact Hk. rewrite <- Hnth by lia. apply (at_new A); [lia|]. rewrite Hnth, <- Hnew by lia. intros K. apply (Hfo (nth k outs 0)); [apply nth_In; lia|exact K]. }
    assert (forall x, In x (fs ++ es) -> dangles s1 x) as Dg.
    { intros x Hx. apply in_app_or in Hx. destruct Hx as [Hx|Hx]; [apply (loose_dangles (beside_new ns L (Hfs x Hx)))|apply (loose_dangles (beside_old L LV (Hes x Hx)))]. }
    assert (forall x, In x fs -> on s1 n x) as OnF by (intros x Hx; apply (leaf_on L), Hfs, Hx).
    assert (forall x, In x es -> exists h, In h ns /\ on s1 h x) as OnE.
    { intros x Hx. destruct (loose_on (Hes x Hx)) as (h & Hh & Ho). exists h. split; [exact Hh|]. apply (leaf_on_old L Ho). }
    assert (~ In n ns) as Hnn by (intros K; apply (lf_fresh L), (proj2 LV _ K)).
    assert (forall x h, In x es -> on s1 h x -> In h ns) as OnE'.
    { intros x h Hx Ho. destruct (OnE x Hx) as (h' & Hh & Ho'). rewrite (dangles_on (lf_wf L) (Dg x (in_or_app _ _ _ (or_intror Hx))) Ho Ho'). exact Hh. }
    assert (forall x h, In x fs -> on s1 h x -> h = n) as OnF'.
    { intros x h Hx Ho. apply (dangles_on (lf_wf L) (Dg x (in_or_app _ _ _ (or_introl Hx))) Ho (OnF x Hx)). }
    split.
    - apply (at_wf A).
    - apply (at_live A).
    - exact ND'.
    - intros x. split.
      + intros Hx. destruct (In_nth _ _ 0 Hx) as (j & Hj & <-). rewrite Hlen in Hj. destruct (Cases j Hj) as [(k & Hk & _ & E1 & E2)|[_ [E1 E2]]]; rewrite E2; [apply Outs, Hk|].
        apply (at_old A); [apply (wi_loose I), nth_In; rewrite Ls; exact Hj|apply Hnin; assumption].
      + intros Hx. destruct (joined_loose_back (lf_wf L) J Dg Hx) as [Q1 Q2]. destruct (leaf_loose_back L (proj2 LV) Q1) as [Q|Q].
        * apply (wi_loose I) in Q. destruct (In_nth _ _ 0 Q) as (j & Hj & E). rewrite Ls in Hj. destruct (Cases j Hj) as [(k & Hk & _ & E1 & E2)|[_ [E1 E2]]].
          -- exfalso. apply Q2, in_or_app. right. rewrite <- E, E1. unfold es. apply (in_map (fun t => nth t state 0)), nth_In. lia.
          -- rewrite <- E, <- E2. apply nth_In. lia.
        * rewrite Hnes in Q. apply in_app_or in Q. destruct Q as [Q|Q]; [|exfalso; apply Q2, in_or_app; left; exact Q].
          destruct (In_nth _ _ 0 Q) as (k & Hk & <-). rewrite Lo in Hk. assert (In (nth k ts 0) ts) as Ht by (apply nth_In; lia).
          replace (nth k outs 0) with (nth (nth k ts 0) state' 0); [apply nth_In; rewrite Hlen; apply Hr, Ht|]. apply puts_at; auto; lia.
    - apply (nth_ext _ _ 0 0); [rewrite map_length; unfold act; cbn [shape]; rewrite over_length; exact Hlen|]. rewrite map_length, Hlen. intros j Hj.
      rewrite nth_map_0 by (rewrite Hlen; exact Hj). unfold act. cbn [shape]. rewrite nth_over by exact Hj. rewrite Lts.
      destruct (Cases j Hj) as [(k & Hk & Ep & E1 & E2)|[Ep [E1 E2]]]; rewrite Ep, E2.
      + rewrite (proj2 (Outs k Hk)). symmetry. apply nth_first. exact Hk.
      + destruct (at_old A (proj1 (wi_loose I (nth j state 0)) ltac:(apply nth_In; lia)) (Hnin j Hj E1)) as [_ ->].
        rewrite <- (wi_dims I). symmetry. apply nth_map_0. lia.
    - apply (@joined_closed R s1 s' fs es (fun m => In m (ns ++ [n])) (lf_wf L) J).
      + intros x Hx. split; [apply Dg, Hx|]. apply in_app_or in Hx. destruct Hx as [Hx|Hx].
        * exists n. split; [apply in_or_app; right; left; reflexivity|apply OnF, Hx].
        * destruct (OnE x Hx) as (h & Q1 & Q2). exists h. split; [apply in_or_app; left; exact Q1|exact Q2].
      + apply (leaf_closed L (proj2 LV)). apply (wi_closed I).
    - intros m e Hm. apply (joined_self (lf_wf L) J Dg).
      + intros e0 f0 Hc h Ha Hb. pose proof (in_combine_l _ _ _ _ Hc) as C1. pose proof (in_combine_r _ _ _ _ Hc) as C2.
        apply Hnn. rewrite <- (OnF' e0 h C1 Ha). apply (OnE' f0 h C2 Hb).
      + intros y. apply in_app_or in Hm. destruct Hm as [Hm|[<-|[]]].
        * apply (leaf_self L); [intros _ z; apply (wi_plain I Hm)|left; apply (proj2 LV _ Hm)].
        * apply (leaf_self L); [intros K; destruct (lf_fresh L K)|right; reflexivity].
    - intros m Hm nd E. pose proof (jn_same J m) as Q. rewrite E in Q. destruct (s_nodes s1 m) as [nd1|] eqn:E1; [|contradiction]. destruct Q as (_ & Q1 & Q2). rewrite Q1, Q2.
      apply in_app_or in Hm. destruct Hm as [Hm|[<-|[]]].
      + rewrite (k_nodes (lf_kept L) (proj2 LV _ Hm)) in E1. apply (wi_name I Hm E1).
      + rewrite (lf_node L) in E1. injection E1 as <-. cbn [n_edges n_names]. rewrite seq_length, (lf_len L). lia.
    - intros pre m post E Hp.
      destruct post as [|z post] using rev_ind.
      + apply app_inj_tail in E. destruct E as [-> <-]. assert (exists e0 es', es = e0 :: es') as (e0 & es' & Ees) by (revert Le Hw; generalize es; clear; intros [|x l] Q K; [exfalso; rewrite <- Q in K; inversion K|eauto]).
        assert (exists f0 fs', fs = f0 :: fs') as (f0 & fs' & Efs) by (revert Lf Hw; generalize fs; clear; intros [|x l] Q K; [exfalso; rewrite <- Q in K; inversion K|eauto]).
        pose proof (jn_pair J) as Q. rewrite Ees, Efs in Q. inversion Q as [|? ? ? ? (g & p & q & G1 & G2 & G3 & G4 & G5 & G6) _]. clear Q.
        assert (fst p = n) as Hp1 by (apply (OnF' f0); [rewrite Efs; left; reflexivity|exists (snd p); destruct p; exact G2]).
        assert (In (fst q) pre) as Hq1 by (apply (OnE' e0); [rewrite Ees; left; reflexivity|exists (snd q); destruct q; exact G3]).
        exists (fst q), g. split; [exact Hq1|]. exists q, p. split; [intros ->; apply Hnn; congruence|]. auto.
      + clear IHpost. assert (ns ++ [n] = (pre ++ m :: post) ++ [z]) as E' by (rewrite E, <- app_assoc; reflexivity).
        apply app_inj_tail in E'. destruct E' as [E' _]. destruct (wi_link I E' Hp) as (h & e & Q1 & Q2). exists h, e. split; [exact Q1|].
        apply (joined_between (lf_wf L) J Dg), (leaf_between L), Q2.
    - intros a. rewrite (at_val A), Hdim. unfold act. cbn [elt]. rewrite Lts. apply lsum_ext. intros vs Hvs.
      assert (length vs = w) as Lv by (apply In_idxs, valid_length in Hvs; rewrite Hvs, skipn_length; unfold rank in Hrk; lia).
      set (b := binds Nat.eq_dec a es vs).
      assert (forall k, k < w -> b (nth (nth k ts 0) state 0) = nth k vs 0) as Bat.
      { intros k Hk. assert (nth_error es k = Some (nth (nth k ts 0) state 0)) as Q by (unfold es; apply (map_nth_error (fun t0 => nth t0 state 0)); apply nth_error_nth'; lia).
        pose proof (binds_nth a NDe (eq_trans Lv (eq_sym Le)) Q) as B. apply (nth_error_nth _ _ 0) in B. unfold b. congruence. }
      assert (map b state = over (map a state') ts vs) as Emap.
      { apply (nth_ext _ _ 0 0); [rewrite over_length, !map_length, Ls, Hlen; reflexivity|]. rewrite map_length, Ls. intros j Hj.
        rewrite nth_map_0 by (rewrite Ls; exact Hj). rewrite nth_over by (rewrite map_length, Hlen; exact Hj).
        destruct (Cases j Hj) as [(k & Hk & Ep & E1 & E2)|[Ep [E1 E2]]]; rewrite Ep.
        - rewrite E1. apply Bat, Hk.
        - rewrite nth_map_0 by (rewrite Hlen; exact Hj). rewrite E2. apply binds_other, Hnin; assumption. }
      rewrite (wi_val I). fold b. rewrite Emap.
      replace (map (binds Nat.eq_dec a fs vs) nes) with (map (fun t => nth t (map a state') 0) ts ++ vs); [ring|].
      rewrite Hnes, map_app. f_equal.
      + rewrite map_binds_other by (intros x Hx K; apply (Hfo _ Hx K)).
        apply (nth_ext _ _ 0 0); [rewrite !map_length; lia|]. rewrite map_length, Lts. intros k Hk. rewrite (@nth_map_0 (fun t => nth t (map a state') 0) ts k) by lia. rewrite (@nth_map_0 a outs k) by lia.
        assert (In (nth k ts 0) ts) as Ht by (apply nth_In; lia).
        rewrite nth_map_0 by (rewrite Hlen; apply Hr, Ht). f_equal. apply puts_at; auto; lia.
      + symmetry. apply map_binds; [exact NDf|lia].
  Qed.
End WI.
