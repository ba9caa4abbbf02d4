(** * Stitch: connecting a new node to loose ends of a network *)
From Coq Require Import Permutation List Lia.
From Verif Require Import Prelude Algebra Tensor TensorFacts Einsum EinsumFacts NetworkFacts Graph GraphBase GraphConnect GraphContract GraphOps GraphValue GraphLaws GraphJoin GraphQuery GraphQueryFacts GraphCopy GraphCopyFacts GraphDensity Quantum QuantumSpec QuantumFacts QuantumJoin QuantumMake.
Import ListNotations.
Set Implicit Arguments.
Unset Strict Implicit.

Section St.
  Context {R : cjr}.
  Notation st := (@st R).
  Notation M := (@M R).
  Implicit Types (s : st) (e f g : eid) (n m : nid).
  Notation "x <- m ;; k" := (bind m (fun x => k)) (at level 61, m at next level, right associativity).
  Notation "m ;;; k" := (bind m (fun _ => k)) (at level 61, right associativity).
  Add Ring Rst : (rsr R).

  (** a network: live, distinct nodes *)
  Definition live s (ns : list nid) : Prop := NoDup ns /\ forall n, In n ns -> is_node s n.

  Lemma kept_loose s s' ns x : kept s s' -> (forall n, In n ns -> is_node s n) -> loose s ns x -> loose s' ns x.
  Proof.
    intros K L (p & H1 & H2 & H3). exists p. split; [exact H1|]. rewrite (kept_slot K (L _ H1)). split; [exact H2|].
    rewrite (k_edges K (m := fst p)); [exact H3|]. exists (snd p). rewrite <- surjective_pairing. exact H2.
  Qed.
  Lemma loose_on s ns x : loose s ns x -> exists n, In n ns /\ on s n x.
  Proof. intros (p & H1 & H2 & _). exists (fst p). split; [exact H1|]. exists (snd p). rewrite <- surjective_pairing. exact H2. Qed.
  Lemma loose_app s ns ns' x : loose s ns x -> loose s (ns ++ ns') x.
  Proof. intros (p & H1 & H2). exists p. split; [apply in_or_app; auto|exact H2]. Qed.
  Lemma loose_edim s s' ns x : wf s -> wf s' -> kept s s' -> loose s ns x -> edim s' x = edim s x.
  Proof. intros W W' K L. destruct (loose_on L) as (n & _ & H). exact (kept_edim W W' K H). Qed.

  (** a new node beside the network *)
  Section Beside.
    Variables (s s1 : st) (t : tensor R) (n : nid) (nes : list eid) (ns : list nid).
    Hypothesis W : wf s.
    Hypothesis L : leaf s s1 t n nes.
    Hypothesis LV : live s ns.

    Lemma beside_live : live s1 (ns ++ [n]).
    Proof.
      destruct LV as [N1 N2]. split.
      - apply NoDup_app_iff. split; [exact N1|]. split; [repeat constructor; intros []|]. intros x Hx [<-|[]]. apply (lf_fresh L), N2, Hx.
      - intros m Hm. apply in_app_or in Hm. destruct Hm as [Hm|[<-|[]]]; [apply (kept_node (lf_kept L)), N2, Hm|].
        unfold is_node. rewrite (lf_node L). discriminate.
    Qed.
    Lemma beside_apart x : loose s ns x -> ~ In x nes.
    Proof.
      intros Hx Hin. destruct (loose_on Hx) as (m & Hm & Ho). apply (leaf_on L) in Hin.
      apply (kept_on x (lf_kept L) (proj2 LV _ Hm)) in Ho. apply (lf_fresh L), (k_sep (lf_kept L) (proj2 LV _ Hm) Ho Hin).
    Qed.
    Lemma beside_new x : In x nes -> loose s1 (ns ++ [n]) x.
    Proof.
      intros Hx. destruct (lf_dangling L Hx) as (k & Hk). destruct (lf_open L Hx) as (k' & H1 & H2). exists (n, k'). split; [apply in_or_app; right; left; reflexivity|].
      split; [exact H1|]. rewrite Hk. pose proof (dangling_slot (lf_wf L) H1 Hk eq_refl) as Q. cbn in Q. injection Q as ->. reflexivity.
    Qed.
    Lemma beside_old x : loose s ns x -> loose s1 (ns ++ [n]) x.
    Proof. intros Hx. apply loose_app, (kept_loose (lf_kept L) (proj2 LV) Hx). Qed.
    Lemma beside_netval a : netval s1 (ns ++ [n]) a = rmul (netval s ns a) (elt t (map a nes)).
    Proof.
      rewrite netval_app.
      - rewrite (leaf_value L), (kept_netval a W (lf_wf L) (lf_kept L) (proj2 LV)). reflexivity.
      - intros m m' e Hm [<-|[]] H1 H2. apply (lf_fresh L), (k_sep (lf_kept L) (proj2 LV _ Hm) H1 H2).
    Qed.
  End Beside.

  (** what is left after connecting pairs of loose ends of a network *)
  Lemma joined_loose s s' es fs ns x : joined s s' es fs -> loose s ns x -> x < s_ne s -> ~ In x (es ++ fs) -> loose s' ns x.
  Proof.
    intros J (p & H1 & H2 & H3) Hlt Hn. exists p. split; [exact H1|]. split; [apply (jn_slot J H2 Hn)|]. rewrite (jn_old J Hlt). exact H3.
  Qed.
  Lemma joined_is_node s s' es fs n : joined s s' es fs -> is_node s n -> is_node s' n.
  Proof. intros J. pose proof (jn_same J n) as Q. unfold is_node. destruct (s_nodes s n), (s_nodes s' n); try tauto; try congruence. Qed.
  Lemma joined_live s s' es fs ns : joined s s' es fs -> live s ns -> live s' ns.
  Proof. intros J [H1 H2]. split; [exact H1|]. intros m Hm. apply (joined_is_node J), H2, Hm. Qed.
  Lemma joined_edim s s' es fs ns x : wf s -> joined s s' es fs -> loose s ns x -> ~ In x (es ++ fs) -> edim s' x = edim s x.
  Proof.
    intros W J (p & H1 & H2 & H3) Hn. pose proof (edim_dimat (jn_wf J) (jn_slot J H2 Hn)) as D1.
    rewrite (same_nodes_dimat p (jn_same J)), (edim_dimat W H2) in D1. congruence.
  Qed.

  Definition dangles s x : Prop := exists p, slot s p = Some x /\ s_edges s x = Some (Edge (fst p) (snd p) None false).
  Lemma dangles_one s x p q : wf s -> dangles s x -> slot s p = Some x -> slot s q = Some x -> p = q.
  Proof. intros W (r & _ & E) Hp Hq. rewrite (dangling_slot W Hp E eq_refl), (dangling_slot W Hq E eq_refl). reflexivity. Qed.
  Lemma dangles_on s x n m : wf s -> dangles s x -> on s n x -> on s m x -> n = m.
  Proof. intros W D (k & H1) (k' & H2). pose proof (dangles_one W D H1 H2) as Q. congruence. Qed.
  Lemma loose_dangles s ns x : loose s ns x -> dangles s x.
  Proof. intros (p & _ & Q). exists p. exact Q. Qed.

  (** what connecting does to the paths in the network *)
  Lemma joined_conn s s' es fs m m' : wf s -> joined s s' es fs -> (forall x, In x (es ++ fs) -> dangles s x) -> connected s m m' -> connected s' m m'.
  Proof.
    intros W J D. induction 1 as [n|n m l e H IH H1 H2]; [apply conn_refl|].
    destruct (in_dec Nat.eq_dec e (es ++ fs)) as [Hi|Hi].
    - rewrite <- (dangles_on W (D e Hi) H1 H2). exact IH.
    - destruct H1 as (k & H1), H2 as (k' & H2). apply (conn_step IH (e := e)); [exists k|exists k']; apply (jn_slot J); assumption.
  Qed.
  Lemma joined_pair s s' es fs e f h h' : wf s -> joined s s' es fs -> (forall x, In x (es ++ fs) -> dangles s x) -> In (e, f) (combine es fs) ->
    on s h e -> on s h' f -> connected s' h h'.
  Proof.
    intros W J D Hin (k & H1) (k' & H2). pose proof (jn_pair J) as P.
    assert (dangles s e /\ dangles s f) as [De Df] by (split; apply D, in_or_app; [left; apply (in_combine_l _ _ _ _ Hin)|right; apply (in_combine_r _ _ _ _ Hin)]).
    assert (exists g p q, slot s p = Some e /\ slot s q = Some f /\ slot s' p = Some g /\ slot s' q = Some g) as (g & p & q & P1 & P2 & P3 & P4).
    { clear - P Hin. induction P as [|x y l l' H P IH]; [destruct Hin|]. destruct Hin as [E|Hin]; [|apply IH, Hin].
      injection E as -> ->. destruct H as (g & p & q & _ & Q1 & Q2 & Q3 & Q4 & _). exists g, p, q. auto. }
    rewrite (dangles_one W De P1 H1) in P3. rewrite (dangles_one W Df P2 H2) in P4.
    apply (conn_step (conn_refl s' h) (e := g)); [exists k|exists k']; assumption.
  Qed.
  Lemma joined_closed s s' es fs (C : nid -> Prop) : wf s -> joined s s' es fs -> (forall x, In x (es ++ fs) -> dangles s x /\ exists n, C n /\ on s n x) ->
    (forall m m' e, C m -> on s m e -> on s m' e -> C m') -> forall m m' e, C m -> on s' m e -> on s' m' e -> C m'.
  Proof.
    intros W J D HC m m' g Hm (k & H1) (k' & H2).
    assert (forall z y, slot s' z = Some y -> exists x, slot s z = Some x) as Back.
    { intros z y Hz. pose proof (jn_same J (fst z)) as Q. unfold slot in *. destruct (s_nodes s (fst z)) as [a|], (s_nodes s' (fst z)) as [b|]; try tauto; try discriminate.
      destruct Q as (_ & _ & Q). destruct (nth_error (n_edges a) (snd z)) as [x|] eqn:E; [eauto|]. exfalso. apply nth_error_None in E. assert (snd z < length (n_edges b)) by (apply nth_error_Some; congruence). lia. }
    assert (forall z, In z (es ++ fs) -> exists n, open_on s n z) as Hop.
    { intros z Hz. destruct (D z Hz) as (Dz & _). destruct Dz as (p & Hp & E). exists (fst p), (snd p). rewrite <- surjective_pairing. split; [exact Hp|].
      intros q Hq. apply (@dangles_one s z q p W); auto. exists p. auto. }
    destruct (Back _ _ H1) as (x & X1). destruct (Back _ _ H2) as (x' & X2).
    destruct (in_dec Nat.eq_dec x' (es ++ fs)) as [I2|I2].
    - destruct (D x' I2) as (Dx & n & Cn & On). rewrite (dangles_on W Dx (ex_intro _ _ X2) On). exact Cn.
    - rewrite (jn_slot J X2 I2) in H2. injection H2 as ->. 
      destruct (in_dec Nat.eq_dec x (es ++ fs)) as [I1|I1].
      + destruct (@joined_slot_new R s s' es fs (m, k) x W J X1 I1 Hop) as (g' & p' & G1 & G2 & _). rewrite G2 in H1. injection H1 as ->. pose proof (slot_lt W X2). lia.
      + rewrite (jn_slot J X1 I1) in H1. injection H1 as ->. apply (HC m m' g Hm); [exists k|exists k']; assumption.
  Qed.

  (** a new node, some of whose legs are connected to loose ends *)
  Record attached s s' (ns : list nid) (t : tensor R) n (nes es fs : list eid) : Prop := {
    at_wf : wf s';
    at_fresh : ~ is_node s n;
    at_nodes : forall m, is_node s m -> is_node s' m;
    at_live : live s' (ns ++ [n]);
    at_nodup : NoDup nes;
    at_len : length nes = rank t;
    at_apart : forall x, loose s ns x -> ~ In x nes;
    at_old : forall x, loose s ns x -> ~ In x es -> loose s' (ns ++ [n]) x /\ edim s' x = edim s x;
    at_new : forall k, k < rank t -> ~ In (nth k nes 0) fs -> loose s' (ns ++ [n]) (nth k nes 0) /\ edim s' (nth k nes 0) = nth k (shape t) 0;
    at_val : forall a, netval s' (ns ++ [n]) a =
      lsum (idxs (map (edim s) es)) (fun vs => rmul (netval s ns (binds Nat.eq_dec a es vs)) (elt t (map (binds Nat.eq_dec a fs vs) nes)))
  }.

  Lemma attach_ok s s1 ns t n nes es fs : wf s -> live s ns -> leaf s s1 t n nes -> NoDup es -> (forall x, In x es -> loose s ns x) ->
    NoDup fs -> (forall x, In x fs -> In x nes) -> Forall2 (fun e f => edim s e = edim s1 f) es fs ->
    exists s', connects es fs s1 = (s', Some tt) /\ joined s1 s' es fs /\ attached s s' ns t n nes es fs.
  Proof.
    intros W LV L Ne Hes Nf Hfs Hd.
    assert (forall x, In x es -> ~ In x nes) as Hap by (intros x Hx; apply (beside_apart L LV), Hes, Hx).
    assert (NoDup (es ++ fs)) as Nef.
    { apply NoDup_app_iff. split; [exact Ne|]. split; [exact Nf|]. intros x Hx Hx'. apply (Hap x Hx), Hfs, Hx'. }
    assert (forall x, In x (es ++ fs) -> loose s1 (ns ++ [n]) x) as Hl.
    { intros x Hx. apply in_app_or in Hx. destruct Hx as [Hx|Hx]; [apply (beside_old L LV), Hes, Hx|apply (beside_new ns L), Hfs, Hx]. }
    destruct (@connects_ok R es fs s1 (lf_wf L) Nef) as (s' & H1 & J).
    { intros x Hx. destruct (Hl x Hx) as (p & _ & Q). exists p. exact Q. }
    { assert (forall x, In x es -> edim s1 x = edim s x) as Q by (intros x Hx; apply (loose_edim W (lf_wf L) (lf_kept L) (Hes x Hx))).
      clear - Hd Q. induction Hd as [|x y l l' H _ IH]; constructor; [rewrite Q by (left; reflexivity); exact H|]. apply IH. intros z Hz. apply Q. right. exact Hz. }
    exists s'. split; [exact H1|]. split; [exact J|]. 
    assert (forall x (l : list nid), loose s1 l x -> x < s_ne s1) as Hlt by (intros x l (p & _ & Q & _); apply (slot_lt (lf_wf L) Q)).
    split.
    - apply (jn_wf J).
    - apply (lf_fresh L).
    - intros m Hm. apply (joined_is_node J), (kept_node (lf_kept L) Hm).
    - apply (joined_live J), (beside_live L LV).
    - apply (lf_nodup L).
    - apply (lf_len L).
    - intros x. apply (beside_apart L LV).
    - intros x Hx Hn. pose proof (beside_old L LV Hx) as Q.
      assert (~ In x (es ++ fs)) as Hn' by (intros K; apply in_app_or in K; destruct K as [K|K]; [contradiction|]; apply (beside_apart L LV Hx), Hfs, K).
      split; [apply (joined_loose J Q (Hlt _ _ Q) Hn')|]. rewrite (joined_edim (lf_wf L) J Q Hn'). apply (loose_edim W (lf_wf L) (lf_kept L) Hx).
    - intros k Hk Hn. assert (In (nth k nes 0) nes) as Hin by (apply nth_In; rewrite (lf_len L); exact Hk).
      pose proof (beside_new ns L Hin) as Q.
      assert (~ In (nth k nes 0) (es ++ fs)) as Hn' by (intros K; apply in_app_or in K; destruct K as [K|K]; [apply (Hap _ K Hin)|contradiction]).
      split; [apply (joined_loose J Q (Hlt _ _ Q) Hn')|]. rewrite (joined_edim (lf_wf L) J Q Hn'). apply (leaf_dim L Hk).
    - intros a. rewrite (jn_val J) by (auto; apply (beside_live L LV)).
      replace (map (edim s1) es) with (map (edim s) es) by (apply map_ext_in; intros x Hx; symmetry; apply (loose_edim W (lf_wf L) (lf_kept L) (Hes x Hx))).
      apply lsum_ext. intros vs Hvs. rewrite (beside_netval W L LV). f_equal.
      + apply netval_ext_asg. intros x Hx.
        assert (length vs = length es) as Hlv by (apply In_idxs in Hvs; rewrite (valid_length Hvs), map_length; reflexivity).
        destruct (in_dec Nat.eq_dec x es) as [Hxe|Hxe].
        * destruct (In_nth_error _ _ Hxe) as (i & Hi). pose proof (binds_nth (binds Nat.eq_dec a fs vs) Ne Hlv Hi) as B1. pose proof (binds_nth a Ne Hlv Hi) as B2. congruence.
        * transitivity (binds Nat.eq_dec a fs vs x); [apply binds_other; exact Hxe|]. transitivity (a x); [|symmetry; apply binds_other; exact Hxe]. apply binds_other. intros K. apply Hfs in K.
          assert (In x (net_labels (net_of s ns))) as K2 by (apply (count_occ_In Nat.eq_dec); lia).
          apply In_net_labels in K2. destruct K2 as (m & Hm & Ho). apply (leaf_on L) in K.
          apply (kept_on x (lf_kept L) (proj2 LV _ Hm)) in Ho. apply (lf_fresh L), (k_sep (lf_kept L) (proj2 LV _ Hm) Ho K).
      + f_equal. apply map_ext_in. intros x Hx. apply binds_other. intros K. apply (Hap x K Hx).
  Qed.

  (** the edges of a new node are numbered from the next free number *)
  Lemma leaf_new s t : wf s -> exists s1 n, new_node t None s = (s1, Some n) /\ leaf s s1 t n (seq (s_ne s) (rank t)) /\ s_ne s1 = s_ne s + rank t.
  Proof.
    intros W. destruct (leaf_ok t W) as (s1 & n & es & H & L). exists s1, n. split; [exact H|].
    destruct (new_node_inv H) as (nms & _ & _ & H1 & _ & _ & _ & H2 & _). split; [|exact H1].
    pose proof (lf_node L) as Q. rewrite H2, Nat.eqb_refl in Q. injection Q as Q _. rewrite Q. exact L.
  Qed.
End St.
